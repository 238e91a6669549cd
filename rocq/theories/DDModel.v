(** Model of the equations of the Fortran drift-diffusion module,
    solcore/poisson_drift_diffusion/DDmodel-current.f95: carriers (lines 1091-1121),
    auxiliary functions (1125-1176), recombination (1793-1822), generation (1825-1855),
    residuals (1505-1567), Jacobian (1569-1790), terminal currents (1462-1491), initial
    potentials (201-301), damping of the corrections (1334-1402), equilibrium (1874-1925),
    illumination (1017-1028), ramp of the light (1929-1977) and quantum efficiency
    (2129-2174).  Arrays over the nodes are functions of the node number; quadruple
    precision is idealised as R. *)
From Coq Require Import Reals List Bool Lia Lra.
From Verif Require Import Common.
From Coq Require Import List.
Import ListNotations.
Open Scope R_scope.

(** Electron charge and Boltzmann constant of the module, lines 6-7. *)
Definition dd_q : R := 160217646 / 10 ^ 27.
(** With [dd_q], DDmodel-current.f95, lines 6-7. *)
Definition dd_kb : R := 13806503 / 10 ^ 30.
Lemma dd_q_pos : 0 < dd_q.
Proof. unfold dd_q. apply Rdiv_lt_0_compat; [lra|apply pow_lt; lra]. Qed.
Lemma dd_kb_pos : 0 < dd_kb.
Proof. unfold dd_kb. apply Rdiv_lt_0_compat; [lra|apply pow_lt; lra]. Qed.
Global Opaque dd_q dd_kb.

(** The device on its mesh, lines 21-52 and 64-86: number of elements M, spacings, material
    data at the nodes, the generation per element [d_G], the switches (0 or 1) of the
    recombination processes and the inverse thermal voltage b (line 210). *)
Record dev := mkDev {
  d_M : nat; d_dX : nat -> R; d_b : R;
  d_Eg : nat -> R; d_Xi : nat -> R; d_Nc : nat -> R; d_Nv : nat -> R; d_mun : nat -> R; d_mup : nat -> R; d_eps : nat -> R;
  d_tn : nat -> R; d_tp : nat -> R; d_brad : nat -> R; d_ccn : nat -> R; d_ccp : nat -> R;
  d_Nd : nat -> R; d_Na : nat -> R; d_G : nat -> R; d_SRH : R; d_RAD : R; d_AUG : R }.
(** The unknowns: hole quasi-Fermi potential, potential, electron quasi-Fermi potential (in
    thermal voltages), lines 28-29. *)
Record pot := mkPot { o_Fp : nat -> R; o_Psi : nat -> R; o_Fn : nat -> R }.
(** The boundary conditions, lines 70-77: surface recombination velocities, equilibrium
    densities at the surfaces, switches and applied potential. *)
Record bnd := mkBnd {
  s_nf : R; s_pf : R; s_nb : R; s_pb : R; e_nf : R; e_nb : R; e_pf : R; e_pb : R;
  w_EQ : R; w_SC : R; w_OCn : R; w_OCp : R; v_ap : R }.

Section Device.
Context (d : dev).
Local Notation M := (d_M d).
Local Notation b := (d_b d).

(** Line 244. *)
Definition ni (k : nat) : R := sqrt (d_Nc d k * d_Nv d k * exp (- b * d_Eg d k)).
(** [Bandedge], lines 1103-1110, with the last node as reference (lines 257-263). *)
Definition Vn (k : nat) : R := ln (d_Nc d k / d_Nc d M) + b * (d_Xi d k - d_Xi d M).
(** With [Vn], DDmodel-current.f95, lines 1103-1110, lines 257-263. *)
Definition Vp (k : nat) : R := ln (d_Nv d k / d_Nv d M) - b * (d_Eg d k - d_Eg d M) - b * (d_Xi d k - d_Xi d M).

(** [Z] and its relatives, lines 1125-1176. *)
Definition tiny : R := 1 / 10 ^ 6.
(** With [tiny], DDmodel-current.f95, lines 1125-1176. *)
Definition Z (u : R) : R := if Rlt_dec (Rabs u) tiny then 1 - 5 / 10 * u else u / (exp u - 1).
(** With [tiny], DDmodel-current.f95, lines 1125-1176. *)
Definition Y (u : R) : R := if Rlt_dec (Rabs u) tiny then 5 / 10 - 1 / 12 * u else (1 - Z u) / u.
(** With [tiny], DDmodel-current.f95, lines 1125-1176. *)
Definition dZ (u : R) : R :=
  if Rlt_dec (Rabs u) tiny then - (5 / 10) + 1 / 6 * u else 1 / (exp u - 1) - exp u * u / (exp u - 1) ^ 2.
(** With [tiny], DDmodel-current.f95, lines 1125-1176. *)
Definition dY (u : R) : R :=
  if Rlt_dec (Rabs u) tiny then - (1 / 12) + 1 / 240 * u ^ 2 else (Z u - 1) / u ^ 2 - dZ u / u.

Section Potentials.
Context (s : pot).
(** [Carriers], lines 1094-1101. *)
Definition n (k : nat) : R := ni M * exp (o_Psi s k - o_Fn s k + Vn k).
(** With [n], DDmodel-current.f95, lines 1094-1101. *)
Definition p (k : nat) : R := ni M * exp (- o_Psi s k + o_Fp s k + Vp k).
(** [ModPotential], lines 1112-1119. *)
Definition Cn (k : nat) : R := o_Psi s k + Vn k + ln (d_mun d k / d_mun d M).
(** With [Cn], DDmodel-current.f95, lines 1112-1119. *)
Definition Cp (k : nat) : R := o_Psi s k - Vp k - ln (d_mup d k / d_mup d M).
(** The charge density, lines 1516. *)
Definition Rho (k : nat) : R := dd_q * (p k - n k + d_Nd d k - d_Na d k).

(** [GR_sub], lines 1793-1822: rates at a node and sheet rates of element k, between nodes k
    and k+1. *)
Definition urad (k : nat) : R := n k * p k - ni k ^ 2.
(** With [urad], DDmodel-current.f95, lines 1793-1822. *)
Definition srh_term (k : nat) : R := d_tn d k * (p k + ni k) + d_tp d k * (n k + ni k).
(** With [urad], DDmodel-current.f95, lines 1793-1822. *)
Definition urec (k : nat) : R := urad k / srh_term k.
(** With [urad], DDmodel-current.f95, lines 1793-1822. *)
Definition uaug (k : nat) : R := (d_ccn d k * n k + d_ccp d k * p k) * urad k.
(** With [urad], DDmodel-current.f95, lines 1793-1822. *)
Definition Rsrh (k : nat) : R := d_SRH d * (dd_q * (urec k + urec (k + 1)) * d_dX d k / 2).
(** With [urad], DDmodel-current.f95, lines 1793-1822. *)
Definition Rrad (k : nat) : R := d_RAD d * (dd_q * d_brad d k * (urad k + urad (k + 1)) * d_dX d k / 2).
(** With [urad], DDmodel-current.f95, lines 1793-1822. *)
Definition Raug (k : nat) : R := d_AUG d * (dd_q * (uaug k + uaug (k + 1)) * d_dX d k / 2).
(** With [urad], DDmodel-current.f95, lines 1793-1822. *)
Definition GR (k : nat) : R := Rsrh k + Rrad k + Raug k - d_G d k.

(** Lines 1520-1523. *)
Definition flux_n (k : nat) : R :=
  - dd_q * d_mun d k / b / d_dX d k * n (k + 1) * Z (Cn (k + 1) - Cn k) * (exp (o_Fn s (k + 1) - o_Fn s k) - 1).
(** With [flux_n], DDmodel-current.f95, lines 1520-1523. *)
Definition flux_p (k : nat) : R :=
  - dd_q * d_mup d k / b / d_dX d k * p k * Z (Cp (k + 1) - Cp k) * (exp (o_Fp s (k + 1) - o_Fp s k) - 1).
(** With [flux_n], DDmodel-current.f95, lines 1520-1523. *)
Definition funcn (k : nat) : R := flux_n k - GR k.
(** With [flux_n], DDmodel-current.f95, lines 1520-1523. *)
Definition funcp (k : nat) : R := flux_p k + GR k.

(** The residuals of node k: f(3k+1), f(3k+2) and f(3k+3), lines 1526-1566, before the final
    change of sign (line 1566).  The index k of lines 1557 and 1559 is M after the loop. *)
Context (w : bnd).
(** By [dd_q], DDmodel-current.f95, lines 6-7. *)
Definition f_hole (k : nat) : R :=
  if (k =? 0)%nat then - funcp 0 - (1 - w_EQ w) * (1 - w_OCn w) * dd_q * s_pf w * (p 0 - e_pf w)
  else if (k =? M)%nat then funcp (M - 1) - GR (M - 1) - (1 - w_EQ w) * (1 - w_OCp w) * dd_q * s_pb w * (p M - e_pb w)
  else funcp (k - 1) - funcp k - GR (k - 1).
(** By [Rho], DDmodel-current.f95, lines 1516. *)
Definition f_poisson (k : nat) : R :=
  if (k =? 0)%nat then (d_eps d 1 + d_eps d 0) / d_dX d 0 * ((1 - w_SC w) * o_Psi s 1 + w_SC w * v_ap w - o_Psi s 0)
  else if (k =? M)%nat then - (d_eps d M + d_eps d (M - 1)) / d_dX d (M - 1) * o_Psi s M
  else (d_eps d (k + 1) + d_eps d k) / d_dX d k * (o_Psi s (k + 1) - o_Psi s k)
       - (d_eps d k + d_eps d (k - 1)) / d_dX d (k - 1) * (o_Psi s k - o_Psi s (k - 1))
       + b * Rho k * (d_dX d k + d_dX d (k - 1)).
(** By [dd_q], DDmodel-current.f95, lines 6-7, [n], DDmodel-current.f95, lines 1094-1101. *)
Definition f_electron (k : nat) : R :=
  if (k =? 0)%nat then - funcn 0 + (1 - w_EQ w) * (1 - w_OCp w) * dd_q * s_nf w * (n 0 - e_nf w)
  else if (k =? M)%nat then funcn (M - 1) + GR (M - 1) + (1 - w_EQ w) * (1 - w_OCn w) * dd_q * s_nb w * (n M - e_nb w)
  else funcn (k - 1) - funcn k + GR (k - 1).

(** Sum over the elements 0 .. m-1, as accumulated in lines 1479-1484. *)
Fixpoint sum_to (g : nat -> R) (m : nat) : R := match m with O => 0 | S m' => sum_to g m' + g m' end.
(** Currents(1) to Currents(6), lines 1462-1484. *)
Definition j_front : R :=
  if Rlt_dec (d_Na d M) (d_Nd d M) then dd_q * s_nf w * (n 0 - e_nf w)
  else if Rlt_dec (d_Nd d M) (d_Na d M) then dd_q * s_pf w * (p 0 - ni 0 ^ 2 / e_nf w) else 0.
(** With [j_front], DDmodel-current.f95, lines 1462-1484. *)
Definition j_back : R :=
  if Rlt_dec (d_Na d M) (d_Nd d M) then dd_q * s_pb w * (p M - ni M ^ 2 / e_nb w)
  else if Rlt_dec (d_Nd d M) (d_Na d M) then dd_q * s_nb w * (n M - e_nb w) else 0.
(** With [j_front], DDmodel-current.f95, lines 1462-1484. *)
Definition j_srh : R := sum_to Rsrh M.
(** With [j_front], DDmodel-current.f95, lines 1462-1484. *)
Definition j_rad : R := sum_to Rrad M.
(** With [j_front], DDmodel-current.f95, lines 1462-1484. *)
Definition j_aug : R := sum_to Raug M.
(** With [j_front], DDmodel-current.f95, lines 1462-1484. *)
Definition j_tot : R := sum_to GR M + (j_front + j_back).

(** The derivatives of the sheet rates with respect to Fp, Psi and Fn at node k (1-3) and k+1
    (4-6), [dgrec], lines 1577-1624.  [j] is the node, k the element. *)
Definition dg_p (k j : nat) : R :=
  d_SRH d * dd_q * d_dX d k / 2 * (n j * p j - d_tn d j * p j * urec j) / srh_term j
  + d_RAD d * dd_q * d_dX d k / 2 * d_brad d j * n j * p j
  + d_AUG d * dd_q * d_dX d k / 2 * (d_ccp d j * p j * urad j + (d_ccn d j * n j + d_ccp d j * p j) * n j * p j).
(** With [dg_p], DDmodel-current.f95, lines 1577-1624. *)
Definition dg_psi (k j : nat) : R :=
  d_SRH d * dd_q * d_dX d k / 2 * (d_tn d j * p j - d_tp d j * n j) * urec j / srh_term j
  + d_AUG d * dd_q * d_dX d k / 2 * (d_ccn d j * n j - d_ccp d j * p j) * urad j.
(** With [dg_p], DDmodel-current.f95, lines 1577-1624. *)
Definition dg_n (k j : nat) : R :=
  d_SRH d * dd_q * d_dX d k / 2 * (d_tp d j * n j * urec j - n j * p j) / srh_term j
  - d_RAD d * dd_q * d_dX d k / 2 * d_brad d j * n j * p j
  - d_AUG d * dd_q * d_dX d k / 2 * (d_ccn d j * n j * urad j + (d_ccn d j * n j + d_ccp d j * p j) * n j * p j).
(** Which unknown is varied (for [dfuncn], DDmodel-current.f95, lines 1626-1662). *)
Inductive unk := UFp | UPsi | UFn.
(** For [dfuncn], DDmodel-current.f95, lines 1626-1662. *)
Definition dgrec (u : unk) (k j : nat) : R := match u with UFp => dg_p k j | UPsi => dg_psi k j | UFn => dg_n k j end.
(** [dfuncn] and [dfuncp], lines 1626-1662: derivative of element k with respect to the left
    ([right = false], node k) or right node. *)
Definition dfuncn (u : unk) (right : bool) (k : nat) : R :=
  let c := dd_q * d_mun d k / b / d_dX d k * n (k + 1) in
  let du := Cn (k + 1) - Cn k in let e := exp (o_Fn s (k + 1) - o_Fn s k) in
  match u, right with
  | UFp, false => - dgrec UFp k k * Y du
  | UPsi, false => c * dZ du * (e - 1) - dgrec UPsi k k * Y du + GR k * dY du
  | UFn, false => c * Z du * e - dgrec UFn k k * Y du
  | UFp, true => - dgrec UFp k (k + 1) * Y du
  | UPsi, true => - c * (Z du + dZ du) * (e - 1) - dgrec UPsi k (k + 1) * Y du - GR k * dY du
  | UFn, true => - c * Z du - dgrec UFn k (k + 1) * Y du
  end.
(** With [dfuncn], DDmodel-current.f95, lines 1626-1662. *)
Definition dfuncp (u : unk) (right : bool) (k : nat) : R :=
  let c := dd_q * d_mup d k / b / d_dX d k * p k in
  let du := Cp (k + 1) - Cp k in let e := exp (o_Fp s (k + 1) - o_Fp s k) in
  match u, right with
  | UFp, false => c * Z du + dgrec UFp k k * Y (- du)
  | UPsi, false => c * (Z du + dZ du) * (e - 1) + dgrec UPsi k k * Y (- du) + GR k * dY (- du)
  | UFn, false => dgrec UFn k k * Y (- du)
  | UFp, true => - c * Z du * e + dgrec UFp k (k + 1) * Y (- du)
  | UPsi, true => - c * dZ du * (e - 1) + dgrec UPsi k (k + 1) * Y (- du) - GR k * dY (- du)
  | UFn, true => dgrec UFn k (k + 1) * Y (- du)
  end.
(** The rows of the Jacobian of an inner node k, lines 1667-1722: columns of node k-1, k, k+1
    ([side] = 0, 1, 2). *)
Definition J_hole (k : nat) (u : unk) (side : nat) : R :=
  match side with
  | 0%nat => dfuncp u false (k - 1) - dgrec u (k - 1) (k - 1)
  | 1%nat => dfuncp u true (k - 1) - dfuncp u false k - dgrec u (k - 1) k
  | _ => - dfuncp u true k
  end.
(** With [J_hole], DDmodel-current.f95, lines 1667-1722. *)
Definition J_electron (k : nat) (u : unk) (side : nat) : R :=
  match side with
  | 0%nat => dfuncn u false (k - 1) + dgrec u (k - 1) (k - 1)
  | 1%nat => dfuncn u true (k - 1) - dfuncn u false k + dgrec u (k - 1) k
  | _ => - dfuncn u true k
  end.
(** With [J_hole], DDmodel-current.f95, lines 1667-1722. *)
Definition J_poisson (k : nat) (u : unk) (side : nat) : R :=
  match u, side with
  | UPsi, 0%nat => (d_eps d k + d_eps d (k - 1)) / d_dX d (k - 1)
  | UFp, 1%nat => b * dd_q * p k * (d_dX d k + d_dX d (k - 1))
  | UPsi, 1%nat => - (d_eps d (k + 1) + d_eps d k) / d_dX d k - (d_eps d k + d_eps d (k - 1)) / d_dX d (k - 1)
                   - b * dd_q * (p k + n k) * (d_dX d k + d_dX d (k - 1))
  | UFn, 1%nat => b * dd_q * n k * (d_dX d k + d_dX d (k - 1))
  | UPsi, S (S _) => (d_eps d (k + 1) + d_eps d k) / d_dX d k
  | _, _ => 0
  end.
End Potentials.

(** * Initial potentials *)

(** The densities of a neutral node, lines 270-276. *)
Definition neutral_n (k : nat) : R :=
  if Rlt_dec (d_Na d k) (d_Nd d k) then 5 / 10 * (d_Nd d k - d_Na d k) + 5 / 10 * sqrt ((d_Nd d k - d_Na d k) ^ 2 + 4 * ni k ^ 2)
  else ni k ^ 2 / (- (5 / 10) * (d_Nd d k - d_Na d k) + 5 / 10 * sqrt ((d_Nd d k - d_Na d k) ^ 2 + 4 * ni k ^ 2)).
(** Lines 278-281. *)
Definition init_F : R := - ln (neutral_n M / ni M) + Vn M.
(** With [init_F], DDmodel-current.f95, lines 278-281. *)
Definition init_psi (k : nat) : R := ln (neutral_n k / ni M) - Vn k + init_F.
(** One sweep of the smoothing, lines 285-287: node i uses the value at i-1 that was already
    replaced; [sweep psi i] is the profile after the nodes 1..i. *)
Definition upd (g : nat -> R) (i : nat) (x : R) (k : nat) : R := if (k =? i)%nat then x else g k.
(** With [upd], DDmodel-current.f95, lines 285-287. *)
Fixpoint sweep (psi : nat -> R) (i : nat) : nat -> R :=
  match i with
  | O => psi
  | S i' => let g := sweep psi i' in upd g (S i') ((g i' + g (S i') + g (S (S i'))) / 3)
  end.
(** With [upd], DDmodel-current.f95, lines 285-287. *)
Fixpoint smooth (times : nat) (psi : nat -> R) : nat -> R :=
  match times with O => psi | S t => smooth t (sweep psi (M - 1)) end.
(** Lines 265-295: the potentials from which the solution starts. *)
Definition init : pot := mkPot (fun _ => init_F) (smooth 10 init_psi) (fun _ => init_F).
End Device.

(** * Damping of the corrections *)

(** [backtracking], lines 1334-1402.  [f] is the correction (index 1..3M+3), [norm] the
    residual norm of a vector of potentials, x the old potentials in the same order.  The
    largest correction is taken over the indices 1 .. 3M-1 only (line 1341). *)
Fixpoint max_abs (f : nat -> R) (m : nat) : R := match m with O => 0 | S m' => Rmax (max_abs f m') (Rabs (f m)) end.
(** With [max_abs], DDmodel-current.f95, lines 1334-1402, line 1341. *)
Definition moved (x f : nat -> R) (lambda : R) (i : nat) : R := x i + lambda * f i.
(** The halvings that are left, lines 1374-1396; when none is accepted the last one stays. *)
Fixpoint search (norm : (nat -> R) -> R) (x f : nat -> R) (sum0 lambda : R) (left : nat) : R :=
  match left with
  | O => lambda
  | S l => if Rlt_dec (norm (moved x f lambda)) (sum0 * (1 - 1 / 10000)) then lambda else search norm x f sum0 (lambda / 2) l
  end.
(** With [search], DDmodel-current.f95, lines 1374-1396. *)
Definition backtracking (M : nat) (clamp : R) (norm : (nat -> R) -> R) (x f : nat -> R) (sum0 : R) : nat -> R :=
  let m := max_abs f (3 * M - 1) in
  if Rle_dec m clamp then (fun i => x i + f i)
  else moved x f (search norm x f sum0 (clamp / m) 10).

(** * Light *)

(** [Illumination], lines 1017-1028: the photon flux by trapezia; [wl] are the wavelengths
    0 .. m. *)
Definition photon_flux (wl spectrum : nat -> R) (m : nat) : R :=
  sum_to (fun i => (spectrum i + spectrum (i + 1)%nat) / 2 * (wl (i + 1)%nat - wl i)) m.
(** [Generation], broadband, lines 1836-1847: per node and per element. *)
Definition gen_node (wl spectrum : nat -> R) (absp : nat -> nat -> R) (m k : nat) : R :=
  sum_to (fun j => (absp k j * (dd_q * spectrum j) + absp k (j + 1)%nat * (dd_q * spectrum (j + 1)%nat)) * (wl (j + 1)%nat - wl j) / 2) m.
(** With [gen_node], DDmodel-current.f95, lines 1836-1847. *)
Definition generation (dX wl spectrum : nat -> R) (absp : nat -> nat -> R) (m k : nat) : R :=
  (gen_node wl spectrum absp m k + gen_node wl spectrum absp m (k + 1)) * dX k / 2.
(** [Generation] at one wavelength, lines 1850-1853. *)
Definition generation1 (dX : nat -> R) (flux : R) (absp : nat -> nat -> R) (wl k : nat) : R :=
  dd_q * flux * (absp k wl + absp (k + 1)%nat wl) * dX k / 2.

(** The device with another generation (for [light_sc], DDmodel-current.f95, lines 1966-1977). *)
Definition with_G (d : dev) (g : nat -> R) : dev :=
  mkDev (d_M d) (d_dX d) (d_b d) (d_Eg d) (d_Xi d) (d_Nc d) (d_Nv d) (d_mun d) (d_mup d) (d_eps d) (d_tn d) (d_tp d) (d_brad d)
    (d_ccn d) (d_ccp d) (d_Nd d) (d_Na d) g (d_SRH d) (d_RAD d) (d_AUG d).

Section Runs.
(** [SolveNonLin] as far as the potentials are concerned: any function of the device, the
    boundary conditions and the previous potentials. *)
Context (solve : dev -> bnd -> pot -> pot) (d : dev) (w : bnd).

(** [LightSC], lines 1966-1977: the light is switched on in decades; the number of steps is
    the ceiling of the decimal logarithm of the photon flux; [left] steps are left. *)
Fixpoint light_sc (g : nat -> R) (left : nat) (s : pot) : pot :=
  match left with
  | O => s
  | S l => light_sc g l (solve (with_G d (fun k => g k * powerRZ 10 (1 - BinInt.Z.of_nat left))) w s)
  end.

(** The six quantum efficiencies of a wavelength, lines 2168-2173: collected, lost to
    Shockley-Read-Hall, radiative and Auger recombination, at the front and at the back. *)
Record qes := mkQes { q_col : R; q_srh : R; q_rad : R; q_aug : R; q_front : R; q_back : R }.
(** With [qes], DDmodel-current.f95, lines 2168-2173. *)
Definition qe_point (flux : R) (d0 : dev) (s0 : pot) (d1 : dev) (s1 : pot) : qes :=
  mkQes (- (j_tot d1 s1 w - j_tot d0 s0 w) / dd_q / flux) ((j_srh d1 s1 - j_srh d0 s0) / dd_q / flux)
        ((j_rad d1 s1 - j_rad d0 s0) / dd_q / flux) ((j_aug d1 s1 - j_aug d0 s0) / dd_q / flux)
        ((j_front d1 s1 w - j_front d0 s0 w) / dd_q / flux) ((j_back d1 s1 w - j_back d0 s0 w) / dd_q / flux).
(** [RunIQE], lines 2146-2175: a hundred-millionth of the photon flux at one wavelength on
    top of the bias light, for the wavelengths 0 .. NumWL-1; [old] are the arrays left by
    earlier runs (they are global and never cleared). *)
Fixpoint iqe_loop (flux : R) (bias : nat -> R) (absp : nat -> nat -> R) (s0 : pot) (m : nat) (old : nat -> qes) : pot * (nat -> qes) :=
  match m with
  | O => (s0, old)
  | S i =>
      let '(s, r) := iqe_loop flux bias absp s0 i old in
      let d1 := with_G d (fun k => generation1 (d_dX d) flux absp i k + bias k) in
      let s1 := solve d1 w s in
      (s1, fun j => if (j =? i)%nat then qe_point flux (with_G d bias) s0 d1 s1 else r j)
  end.
(** With [iqe_loop], DDmodel-current.f95, lines 2146-2175. *)
Definition run_iqe (photonflux : R) (bias : nat -> R) (absp : nat -> nat -> R) (s0 : pot) (numwl : nat) (old : nat -> qes) : nat -> qes :=
  snd (iqe_loop (photonflux / 10 ^ 8) bias absp s0 numwl old).
End Runs.

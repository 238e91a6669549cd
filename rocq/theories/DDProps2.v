(** Properties C129 (fluxes), C130 (initial potentials) and C132 (damping), C133
    (generation) and C134 (quantum efficiency) of the drift-diffusion module. *)
From Coq Require Import Reals List Bool Lia Lra.
From Coquelicot Require Import Coquelicot.
From Verif Require Import Common DDModel DDProps.
From Coq Require Import List.
Import ListNotations.
Open Scope R_scope.

(** * C129 *)

Lemma tiny_pos : 0 < tiny.
Proof. unfold tiny. apply Rdiv_lt_0_compat; [lra|]. apply pow_lt. lra. Qed.
Lemma Z_exact u : tiny <= Rabs u -> Z u = u / (exp u - 1).
Proof. intros H. unfold Z. destruct (Rlt_dec (Rabs u) tiny); [lra|reflexivity]. Qed.
Lemma big_nonzero u : tiny <= Rabs u -> u <> 0.
Proof. intros H E. rewrite E, Rabs_R0 in H. pose proof tiny_pos. lra. Qed.
Lemma exp_minus_1 u : u <> 0 -> exp u - 1 <> 0.
Proof. intros H E. apply H. apply exp_inv. rewrite exp_0. lra. Qed.
(** The weight is positive. *)
Lemma Z_pos u : 0 < Z u.
Proof.
  unfold Z. destruct (Rlt_dec (Rabs u) tiny) as [L|L].
  - apply Rabs_def2 in L. assert (tiny < 1) by (unfold tiny; lra). lra.
  - destruct (Rtotal_order u 0) as [H|[H|H]].
    + replace (u / (exp u - 1)) with (- u / (1 - exp u)).
      * apply Rdiv_lt_0_compat; [lra|]. assert (exp u < exp 0) by now apply exp_increasing. rewrite exp_0 in H0. lra.
      * assert (exp u - 1 <> 0) by (apply exp_minus_1; lra). field. split; lra.
    + exfalso. apply L. rewrite H, Rabs_R0. apply tiny_pos.
    + apply Rdiv_lt_0_compat; [lra|]. assert (exp 0 < exp u) by now apply exp_increasing. rewrite exp_0 in H0. lra.
Qed.

(** Two functions with the same derivative on [0, h] grow by the same amount. *)
Lemma same_growth (g g' f f' : R -> R) (h : R) : 0 < h -> (forall x, 0 <= x <= h -> is_derive g x (g' x)) -> (forall x, 0 <= x <= h -> is_derive f x (f' x)) ->
  (forall x, 0 <= x <= h -> g' x = f' x) -> g h - g 0 = f h - f 0.
Proof.
  intros Ph Dg Df E. destruct (MVT_gen (fun x => g x - f x) 0 h (fun x => g' x - f' x)) as (c & Hc & M).
  - intros x Hx. rewrite Rmin_left, Rmax_right in Hx by lra. apply (is_derive_minus g f x); [apply Dg; lra|apply Df; lra].
  - intros x Hx. rewrite Rmin_left, Rmax_right in Hx by lra. apply continuity_pt_filterlim. apply (ex_derive_continuous (fun x => g x - f x)).
    exists (g' x - f' x). apply (is_derive_minus g f x); [apply Dg; lra|apply Df; lra].
  - rewrite Rmin_left, Rmax_right in Hc by lra. rewrite E in M by assumption. lra.
Qed.

(** Physics of an element of length h: the modified potential is linear between the nodes
    (lines 1112-1119), mobility times density is the exponential of its distance from the
    quasi-Fermi potential F, and the current J, -q/b times that times the gradient of F, is
    constant. *)
Definition line (c0 c1 h x : R) : R := c0 + (c1 - c0) * (x / h).
Definition carries_n (d : dev) (k : nat) (c0 c1 : R) (F F' : R -> R) (J : R) : Prop :=
  forall x, 0 <= x <= d_dX d k -> is_derive F x (F' x) /\
    J = - dd_q / d_b d * (d_mun d (d_M d) * ni d (d_M d) * exp (line c0 c1 (d_dX d k) x - F x)) * F' x.
Definition carries_p (d : dev) (k : nat) (c0 c1 : R) (F F' : R -> R) (J : R) : Prop :=
  forall x, 0 <= x <= d_dX d k -> is_derive F x (F' x) /\
    J = - dd_q / d_b d * (d_mup d (d_M d) * ni d (d_M d) * exp (- line c0 c1 (d_dX d k) x + F x)) * F' x.
(** At the nodes this is mobility times density of the module. *)
Lemma node_n d s k : 0 < d_mun d k -> 0 < d_mun d (d_M d) ->
  d_mun d (d_M d) * ni d (d_M d) * exp (Cn d s k - o_Fn s k) = d_mun d k * n d s k.
Proof.
  intros P P'. unfold Cn, n. replace (o_Psi s k + Vn d k + ln (d_mun d k / d_mun d (d_M d)) - o_Fn s k)
    with (o_Psi s k - o_Fn s k + Vn d k + ln (d_mun d k / d_mun d (d_M d))) by ring.
  rewrite (exp_plus _ (ln _)), exp_ln by now apply Rdiv_lt_0_compat. field. lra.
Qed.
Lemma node_p d s k : 0 < d_mup d k -> 0 < d_mup d (d_M d) ->
  d_mup d (d_M d) * ni d (d_M d) * exp (- Cp d s k + o_Fp s k) = d_mup d k * p d s k.
Proof.
  intros P P'. unfold Cp, p. replace (- (o_Psi s k - Vp d k - ln (d_mup d k / d_mup d (d_M d))) + o_Fp s k)
    with (- o_Psi s k + o_Fp s k + Vp d k + ln (d_mup d k / d_mup d (d_M d))) by ring.
  rewrite (exp_plus _ (ln _)), exp_ln by now apply Rdiv_lt_0_compat. field. lra.
Qed.
Lemma line_derive c0 c1 h x : h <> 0 -> is_derive (line c0 c1 h) x ((c1 - c0) / h).
Proof. intros H. unfold line. auto_derive; [tauto|]. field. assumption. Qed.
Lemma line_0 c0 c1 h : h <> 0 -> line c0 c1 h 0 = c0.
Proof. intros H. unfold line. field. assumption. Qed.
Lemma line_h c0 c1 h : h <> 0 -> line c0 c1 h h = c1.
Proof. intros H. unfold line. field. assumption. Qed.

(** C129, holes: the flux of the module is the exact current of the element. *)
Theorem C129_holes : forall d s k (F F' : R -> R) J, physical d -> 0 < d_b d -> 0 < d_dX d k -> 0 < d_mup d k -> 0 < d_mup d (d_M d) ->
  tiny <= Rabs (Cp d s (k + 1) - Cp d s k) -> F 0 = o_Fp s k -> F (d_dX d k) = o_Fp s (k + 1) ->
  carries_p d k (Cp d s k) (Cp d s (k + 1)) F F' J -> J = flux_p d s k.
Proof.
  intros d s k F F' J P Pb Ph Pm PM Hz F0 Fh H. pose proof dd_q_pos as Pq. pose proof (ni_pos d (d_M d) P) as Pn.
  unfold flux_p. rewrite Z_exact by assumption. rewrite (Rmult_assoc _ (p d s k)).
  set (c0 := Cp d s k) in *. set (c1 := Cp d s (k + 1)) in *. set (h := d_dX d k) in *.
  pose proof (big_nonzero _ Hz) as N. pose proof (exp_minus_1 _ N) as N'.
  set (K := d_mup d (d_M d) * ni d (d_M d)) in *. assert (PK : 0 < K) by now apply Rmult_lt_0_compat.
  pose proof (same_growth (fun x => exp (F x)) (fun x => F' x * exp (F x))
    (fun x => - (J * d_b d / (dd_q * K)) * (h / (c1 - c0)) * exp (line c0 c1 h x)) (fun x => - (J * d_b d / (dd_q * K)) * exp (line c0 c1 h x)) h Ph) as G.
  cbv beta in G. rewrite F0, Fh, line_0, line_h in G by lra.
  assert (G' : exp (o_Fp s (k + 1)) - exp (o_Fp s k) = - (J * d_b d / (dd_q * K)) * (h / (c1 - c0)) * (exp c1 - exp c0)).
  { rewrite G; [ring| | |].
    - intros x Hx. destruct (H x Hx) as [D _]. apply (is_derive_comp exp F x); [apply is_derive_exp|exact D].
    - intros x Hx. pose proof (line_derive c0 c1 h x ltac:(lra)) as D. evar_last.
      + apply (is_derive_scal (fun x => exp (line c0 c1 h x))). apply (is_derive_comp exp (line c0 c1 h) x); [apply is_derive_exp|exact D].
      + unfold scal, mult. simpl. unfold mult. simpl. field. repeat split; lra.
    - intros x Hx. destruct (H x Hx) as [_ E]. fold K in E. rewrite E. rewrite (exp_plus (- line c0 c1 h x)), exp_Ropp. field.
      repeat split; try lra. apply Rgt_not_eq, exp_pos. }
  clear G. pose proof (node_p d s k Pm PM) as Nd. fold K c0 in Nd. rewrite exp_plus, exp_Ropp in Nd.
  assert (E1 : exp (o_Fp s (k + 1) - o_Fp s k) = exp (o_Fp s (k + 1)) / exp (o_Fp s k)) by (unfold Rminus; rewrite exp_plus, exp_Ropp; reflexivity).
  assert (E2 : exp (c1 - c0) = exp c1 / exp c0) by (unfold Rminus; rewrite exp_plus, exp_Ropp; reflexivity).
  pose proof (exp_pos c0) as Pc0. pose proof (exp_pos (o_Fp s k)) as Pf0.
  assert (N3 : exp c1 - exp c0 <> 0).
  { intros E. apply N'. rewrite E2. replace (exp c1) with (exp c0) by lra. field. lra. }
  assert (EJ : J = - (dd_q * K / (d_b d * h)) * (c1 - c0) * (exp (o_Fp s (k + 1)) - exp (o_Fp s k)) / (exp c1 - exp c0)).
  { rewrite G'. field. repeat split; lra. }
  replace (- dd_q * d_mup d k / d_b d / h * (p d s k * ((c1 - c0) / (exp (c1 - c0) - 1))) * (exp (o_Fp s (k + 1) - o_Fp s k) - 1))
    with (- dd_q / (d_b d * h) * (d_mup d k * p d s k) * (c1 - c0) / (exp (c1 - c0) - 1) * (exp (o_Fp s (k + 1) - o_Fp s k) - 1)) by (field; repeat split; lra).
  rewrite <- Nd, E1, E2 in *. rewrite EJ. field. repeat split; try lra. 
Qed.
(** C129, electrons: the exact current is the module's flux times the ratio of the mobilities
    at the two nodes ... *)
Lemma electrons : forall d s k (F F' : R -> R) J, physical d -> 0 < d_b d -> 0 < d_dX d k -> 0 < d_mun d k -> 0 < d_mun d (k + 1) -> 0 < d_mun d (d_M d) ->
  tiny <= Rabs (Cn d s (k + 1) - Cn d s k) -> F 0 = o_Fn s k -> F (d_dX d k) = o_Fn s (k + 1) ->
  carries_n d k (Cn d s k) (Cn d s (k + 1)) F F' J -> J = flux_n d s k * (d_mun d (k + 1) / d_mun d k).
Proof.
  intros d s k F F' J P Pb Ph Pm Pm1 PM Hz F0 Fh H. pose proof dd_q_pos as Pq. pose proof (ni_pos d (d_M d) P) as Pn.
  unfold flux_n. rewrite Z_exact by assumption.
  set (c0 := Cn d s k) in *. set (c1 := Cn d s (k + 1)) in *. set (h := d_dX d k) in *.
  pose proof (big_nonzero _ Hz) as N. pose proof (exp_minus_1 _ N) as N'.
  set (K := d_mun d (d_M d) * ni d (d_M d)) in *. assert (PK : 0 < K) by now apply Rmult_lt_0_compat.
  pose proof (same_growth (fun x => exp (- F x)) (fun x => - F' x * exp (- F x))
    (fun x => - (J * d_b d / (dd_q * K)) * (h / (c1 - c0)) * exp (- line c0 c1 h x)) (fun x => J * d_b d / (dd_q * K) * exp (- line c0 c1 h x)) h Ph) as G.
  cbv beta in G. rewrite F0, Fh, line_0, line_h in G by lra.
  assert (G' : exp (- o_Fn s (k + 1)) - exp (- o_Fn s k) = - (J * d_b d / (dd_q * K)) * (h / (c1 - c0)) * (exp (- c1) - exp (- c0))).
  { rewrite G; [ring| | |].
    - intros x Hx. destruct (H x Hx) as [D _]. apply (is_derive_comp exp (fun x => - F x) x); [apply is_derive_exp|]. apply (is_derive_opp F x). exact D.
    - intros x Hx. pose proof (line_derive c0 c1 h x ltac:(lra)) as D. evar_last.
      + apply (is_derive_scal (fun x => exp (- line c0 c1 h x))). apply (is_derive_comp exp (fun x => - line c0 c1 h x) x); [apply is_derive_exp|]. apply (is_derive_opp (line c0 c1 h) x). exact D.
      + unfold scal, opp, mult. simpl. unfold mult. simpl. field. repeat split; lra.
    - intros x Hx. destruct (H x Hx) as [_ E]. fold K in E. rewrite E. unfold Rminus. rewrite (exp_plus (line c0 c1 h x)), !exp_Ropp. field.
      repeat split; try lra; apply Rgt_not_eq, exp_pos. }
  clear G. pose proof (node_n d s (k + 1) Pm1 PM) as Nd. fold K c1 in Nd. unfold Rminus in Nd. rewrite exp_plus, exp_Ropp in Nd.
  assert (E1 : exp (o_Fn s (k + 1) - o_Fn s k) = exp (o_Fn s (k + 1)) / exp (o_Fn s k)) by (unfold Rminus; rewrite exp_plus, exp_Ropp; reflexivity).
  assert (E2 : exp (c1 - c0) = exp c1 / exp c0) by (unfold Rminus; rewrite exp_plus, exp_Ropp; reflexivity).
  pose proof (exp_pos c0) as Pc0. pose proof (exp_pos c1) as Pc1. pose proof (exp_pos (o_Fn s k)) as Pf0. pose proof (exp_pos (o_Fn s (k + 1))) as Pf1.
  assert (N3 : exp c1 - exp c0 <> 0).
  { intros E. apply N'. rewrite E2. replace (exp c1) with (exp c0) by lra. field. lra. }
  rewrite !exp_Ropp in G'.
  assert (EJ : J = - (dd_q * K / (d_b d * h)) * (c1 - c0) * (/ exp (o_Fn s (k + 1)) - / exp (o_Fn s k)) / (/ exp c1 - / exp c0)).
  { rewrite G'. field. repeat split; try lra. }
  replace (- dd_q * d_mun d k / d_b d / h * n d s (k + 1) * ((c1 - c0) / (exp (c1 - c0) - 1)) * (exp (o_Fn s (k + 1) - o_Fn s k) - 1) * (d_mun d (k + 1) / d_mun d k))
    with (- dd_q / (d_b d * h) * (d_mun d (k + 1) * n d s (k + 1)) * (c1 - c0) / (exp (c1 - c0) - 1) * (exp (o_Fn s (k + 1) - o_Fn s k) - 1)) by (field; repeat split; lra).
  rewrite <- Nd, E1, E2 in *. rewrite EJ. field. repeat split; try lra.
Qed.
(** ... hence the exact current where the mobility does not change. *)
Theorem C129_electrons_partial : forall d s k (F F' : R -> R) J, physical d -> 0 < d_b d -> 0 < d_dX d k -> 0 < d_mun d k -> d_mun d (k + 1) = d_mun d k -> 0 < d_mun d (d_M d) ->
  tiny <= Rabs (Cn d s (k + 1) - Cn d s k) -> F 0 = o_Fn s k -> F (d_dX d k) = o_Fn s (k + 1) ->
  carries_n d k (Cn d s k) (Cn d s (k + 1)) F F' J -> J = flux_n d s k.
Proof.
  intros d s k F F' J P Pb Ph Pm E PM Hz F0 Fh H. rewrite (electrons d s k F F' J) by (rewrite ?E; assumption). rewrite E. field. lra.
Qed.

(** Two nodes, the mobility of the electrons twice as high at the first. *)
Definition step_dev : dev :=
  mkDev 1 (fun _ => 1) 1 (fun _ => 0) (fun _ => 0) (fun _ => 1) (fun _ => 1) (fun k => match k with O => 2 | _ => 1 end) (fun _ => 1) (fun _ => 1)
    (fun _ => 1) (fun _ => 1) (fun _ => 1) (fun _ => 1) (fun _ => 1) (fun _ => 1) (fun _ => 0) (fun _ => 0) 0 0 0.
Definition step_pot : pot := mkPot (fun _ => 0) (fun _ => 0) (fun k => - INR k * ln 2).
Lemma step_ni k : ni step_dev k = 1.
Proof. unfold ni. cbn. rewrite <- Ropp_mult_distr_l, Rmult_0_r, Ropp_0, exp_0, !Rmult_1_r. apply sqrt_1. Qed.
Lemma step_Vn k : Vn step_dev k = 0.
Proof. unfold Vn. cbn. replace (1 / 1) with 1 by lra. rewrite ln_1. lra. Qed.
Lemma step_C k : Cn step_dev step_pot k = match k with O => ln 2 | _ => 0 end.
Proof. unfold Cn. rewrite step_Vn. destruct k; cbn; [replace (2 / 1) with 2 by lra; lra|]. replace (1 / 1) with 1 by lra. rewrite ln_1. lra. Qed.
Lemma ln2_big : 1 / 2 < ln 2.
Proof. assert (exp (1 / 2) < 2). { pose proof exp_le_3. assert (H2 : exp (1 / 2) * exp (1 / 2) = exp 1) by (rewrite <- exp_plus; f_equal; lra). pose proof (exp_pos (1 / 2)). nra. } rewrite <- (ln_exp (1 / 2)). apply ln_increasing; [apply exp_pos|assumption]. Qed.
(** Where it changes, the flux is not the current. *)
Theorem C129_electrons_refuted : exists d s k (F F' : R -> R) J, physical d /\ 0 < d_b d /\ 0 < d_dX d k /\ (forall i, 0 < d_mun d i) /\
  tiny <= Rabs (Cn d s (k + 1) - Cn d s k) /\ F 0 = o_Fn s k /\ F (d_dX d k) = o_Fn s (k + 1) /\
  carries_n d k (Cn d s k) (Cn d s (k + 1)) F F' J /\ J <> 0 /\ flux_n d s k = 2 * J.
Proof.
  exists step_dev, step_pot, 0%nat, (fun x => - x * ln 2), (fun _ => - ln 2), (2 * dd_q * ln 2).
  pose proof ln2_big as L2. pose proof dd_q_pos as Pq.
  assert (Hz : tiny <= Rabs (Cn step_dev step_pot (0 + 1) - Cn step_dev step_pot 0)).
  { rewrite !step_C. cbn [Nat.add]. rewrite Rminus_0_l, Rabs_Ropp, Rabs_right by lra. unfold tiny. lra. }
  assert (Hc : carries_n step_dev 0 (Cn step_dev step_pot 0) (Cn step_dev step_pot (0 + 1)) (fun x => - x * ln 2) (fun _ => - ln 2) (2 * dd_q * ln 2)).
  { intros x Hx. split; [auto_derive; [trivial|ring]|]. rewrite !step_C, step_ni. cbn [Nat.add step_dev d_b d_mun d_M d_dX]. unfold line.
    replace (ln 2 + (0 - ln 2) * (x / 1) - - x * ln 2) with (ln 2) by field. rewrite exp_ln by lra. field. }
  repeat match goal with |- _ /\ _ => split end; try assumption; try (cbn; lra); try (intros i; cbn; lra).
  - intros i. destruct i; cbn; lra.
  - apply Rgt_not_eq. apply Rmult_lt_0_compat; lra.
  - assert (E : 2 * dd_q * ln 2 = flux_n step_dev step_pot 0 * (d_mun step_dev (0 + 1) / d_mun step_dev 0)).
    { apply (electrons step_dev step_pot 0 (fun x => - x * ln 2) (fun _ => - ln 2)); try assumption; try (cbn; lra). intros i. cbn. lra. }
    rewrite E. cbn [Nat.add step_dev d_mun]. field.
Qed.
(** All hypotheses of the two theorems are met by a uniform field with the quasi-Fermi
    potentials along it. *)
Definition ramp_pot : pot := mkPot INR INR INR.
Example C129_example : let d := one_dev 0 1 in
  physical d /\ Cp d ramp_pot 0 = 0 /\ Cp d ramp_pot (0 + 1) = 1 /\ Cn d ramp_pot 0 = 0 /\ Cn d ramp_pot (0 + 1) = 1 /\
  tiny <= Rabs (Cn d ramp_pot (0 + 1) - Cn d ramp_pot 0) /\
  carries_p d 0 0 1 (fun x => x) (fun _ => 1) (- dd_q) /\ carries_n d 0 0 1 (fun x => x) (fun _ => 1) (- dd_q).
Proof.
  assert (A : forall k, Cn (one_dev 0 1) ramp_pot k = INR k).
  { intros k. unfold Cn. rewrite one_Vn. cbn [ramp_pot o_Psi one_dev d_mun]. replace (1 / 1) with 1 by lra. rewrite ln_1. lra. }
  assert (B : forall k, Cp (one_dev 0 1) ramp_pot k = INR k).
  { intros k. unfold Cp. rewrite one_Vp. cbn [ramp_pot o_Psi one_dev d_mup]. replace (1 / 1) with 1 by lra. rewrite ln_1. lra. }
  cbv zeta. rewrite !A, !B. cbn [Nat.add INR]. split; [intros k; cbn; lra|]. do 4 (split; [reflexivity|]).
  split; [rewrite Rabs_right by lra; unfold tiny; lra|]. split; intros x Hx; (split; [apply (is_derive_id x)|]); rewrite one_ni; cbn [one_dev d_mup d_mun d_b d_M d_dX]; unfold line.
  - replace (- (0 + (1 - 0) * (x / 1)) + x) with 0 by field. rewrite exp_0. field.
  - replace (0 + (1 - 0) * (x / 1) - x) with 0 by field. rewrite exp_0. field.
Qed.

(** * C130 *)

Section Init.
Context (d : dev) (P : physical d).
Local Notation M := (d_M d).
Lemma root_bound a c : 0 < c -> Rabs a < sqrt (a ^ 2 + 4 * c ^ 2).
Proof.
  intros Pc. replace (Rabs a) with (sqrt (a ^ 2)); [|rewrite <- Rsqr_pow2; apply sqrt_Rsqr_abs].
  apply sqrt_lt_1; [apply pow2_ge_0| |]; pose proof (pow_lt c 2 Pc); pose proof (pow2_ge_0 a); lra.
Qed.
(** The densities from which the potential is found are positive, neutral and in
    equilibrium. *)
Lemma neutral_spec k : 0 < neutral_n d k /\ ni d k ^ 2 / neutral_n d k - neutral_n d k + d_Nd d k - d_Na d k = 0.
Proof.
  pose proof (ni_pos d k P) as Pn. unfold neutral_n. set (a := d_Nd d k - d_Na d k). pose proof (root_bound a (ni d k) Pn) as B.
  set (r := sqrt (a ^ 2 + 4 * ni d k ^ 2)) in *. assert (R2 : r * r = a ^ 2 + 4 * ni d k ^ 2).
  { apply sqrt_sqrt. pose proof (pow2_ge_0 a). pose proof (pow2_ge_0 (ni d k)). lra. }
  pose proof (Rabs_def2 _ _ B) as [B1 B2]. pose proof (pow_lt _ 2 Pn) as P2.
  replace (d_Nd d k) with (a + d_Na d k) by (unfold a; ring). clearbody a r.
  destruct (Rlt_dec (d_Na d k) (a + d_Na d k)) as [L|L].
  - split; [lra|]. assert (X : ni d k ^ 2 = (5 / 10 * a + 5 / 10 * r) * (- (5 / 10) * a + 5 / 10 * r)) by nra. rewrite X. field. lra.
  - split; [apply Rdiv_lt_0_compat; lra|]. assert (X : ni d k ^ 2 = (5 / 10 * a + 5 / 10 * r) * (- (5 / 10) * a + 5 / 10 * r)) by nra. rewrite X. field. split; lra.
Qed.
Lemma unsmoothed k psi : psi k = init_psi d k -> n d (mkPot (fun _ => init_F d) psi (fun _ => init_F d)) k = neutral_n d k /\
  p d (mkPot (fun _ => init_F d) psi (fun _ => init_F d)) k = ni d k ^ 2 / neutral_n d k.
Proof.
  intros E. pose proof (ni_pos d M P) as PM. destruct (neutral_spec k) as [Pk _].
  assert (N : n d (mkPot (fun _ => init_F d) psi (fun _ => init_F d)) k = neutral_n d k).
  { unfold n. cbn [o_Psi o_Fn]. rewrite E. unfold init_psi. replace (ln (neutral_n d k / ni d M) - Vn d k + init_F d - init_F d + Vn d k) with (ln (neutral_n d k / ni d M)) by ring.
    rewrite exp_ln by now apply Rdiv_lt_0_compat. field. lra. }
  split; [exact N|]. pose proof (C128_mass_action d (mkPot (fun _ => init_F d) psi (fun _ => init_F d)) k P) as A. rewrite N in A. cbn [o_Fp o_Fn] in A.
  replace (init_F d - init_F d) with 0 in A by ring. rewrite exp_0 in A. apply (Rmult_eq_reg_l (neutral_n d k)); [|lra]. rewrite A. field. lra.
Qed.
Lemma sweep_outside psi i k : (k = 0 \/ i < k)%nat -> sweep psi i k = psi k.
Proof.
  revert k. induction i as [|i IH]; intros k H; cbn [sweep]; [reflexivity|]. unfold upd. destruct (Nat.eqb_spec k (S i)) as [->|N]; [lia|]. apply IH. lia.
Qed.
Lemma sweep_bounds psi lo hi i : (forall k, (k <= M)%nat -> lo <= psi k <= hi) -> (i < M)%nat -> forall k, (k <= M)%nat -> lo <= sweep psi i k <= hi.
Proof.
  intros H. induction i as [|i IH]; intros L k K; cbn [sweep]; [now apply H|]. unfold upd. specialize (IH ltac:(lia)).
  destruct (k =? S i)%nat; [|now apply IH]. pose proof (IH i ltac:(lia)). pose proof (IH (S i) ltac:(lia)). pose proof (IH (S (S i)) ltac:(lia)). lra.
Qed.
Lemma smooth_ends t psi : (0 < M)%nat -> smooth d t psi 0 = psi 0%nat /\ smooth d t psi M = psi M.
Proof.
  intros L. revert psi. induction t as [|t IH]; intros psi; cbn [smooth]; [split; reflexivity|].
  destruct (IH (sweep psi (M - 1))) as [-> ->]. split; apply sweep_outside; lia.
Qed.
Lemma smooth_bounds t psi lo hi : (0 < M)%nat -> (forall k, (k <= M)%nat -> lo <= psi k <= hi) -> forall k, (k <= M)%nat -> lo <= smooth d t psi k <= hi.
Proof.
  intros L. revert psi. induction t as [|t IH]; intros psi H; cbn [smooth]; [exact H|]. apply IH. apply sweep_bounds; [exact H|lia].
Qed.
End Init.

(** C130: the solution starts from potentials with flat quasi-Fermi levels at which the
    continuity equations of the equilibrium hold, the potential is zero at the back, the two
    ends are neutral at their doping, and the smoothed potential stays between the extreme
    neutral potentials. *)
Theorem C130_init : forall d w, physical d -> (0 < d_M d)%nat -> (forall k, d_G d k = 0) -> w_EQ w = 1 ->
  continuous d (init d) w /\ o_Psi (init d) (d_M d) = 0 /\ f_poisson d (init d) w (d_M d) = 0 /\
  Rho d (init d) 0 = 0 /\ Rho d (init d) (d_M d) = 0 /\
  (forall lo hi, (forall k, (k <= d_M d)%nat -> lo <= init_psi d k <= hi) -> forall k, (k <= d_M d)%nat -> lo <= o_Psi (init d) k <= hi).
Proof.
  intros d w P L G E.
  assert (Z0 : o_Psi (init d) (d_M d) = 0).
  { cbn [init o_Psi]. rewrite (proj2 (smooth_ends d 10 (init_psi d) L)). unfold init_psi, init_F. ring. }
  split; [|split; [exact Z0|split; [|split; [|split]]]].
  - apply (C128_equilibrium d (init d) w (init_F d)); auto. intros k _. split; reflexivity.
  - unfold f_poisson. rewrite (proj2 (Nat.eqb_neq (d_M d) 0)) by lia. rewrite Nat.eqb_refl, Z0. ring.
  - unfold Rho, init. destruct (unsmoothed d P 0 (smooth d 10 (init_psi d))) as [-> ->]; [apply (smooth_ends d 10 (init_psi d) L)|].
    destruct (neutral_spec d P 0) as [_ H]. rewrite H. ring.
  - unfold Rho, init. destruct (unsmoothed d P (d_M d) (smooth d 10 (init_psi d))) as [-> ->]; [apply (smooth_ends d 10 (init_psi d) L)|].
    destruct (neutral_spec d P (d_M d)) as [_ H]. rewrite H. ring.
  - intros lo hi H k K. cbn [init o_Psi]. apply smooth_bounds; assumption.
Qed.
(** Before the smoothing every node is neutral. *)
Theorem C130_neutral : forall d k, physical d -> let s := mkPot (fun _ => init_F d) (init_psi d) (fun _ => init_F d) in
  Rho d s k = 0 /\ 0 < n d s k /\ 0 < p d s k.
Proof.
  intros d k P s. destruct (unsmoothed d P k (init_psi d) eq_refl) as [A B]. destruct (neutral_spec d P k) as [Pk H]. fold s in A, B.
  unfold Rho. rewrite A, B, H. split; [ring|]. split; [assumption|]. apply Rdiv_lt_0_compat; [|assumption]. apply pow_lt, ni_pos, P.
Qed.
Example C130_example : physical (one_dev 0 1) /\ (0 < d_M (one_dev 0 1))%nat /\ forall k, d_G (one_dev 0 1) k = 0.
Proof. split; [intros k; cbn; lra|]. split; [cbn; lia|reflexivity]. Qed.

(** * C132 *)

Lemma max_abs_ge f m i : (1 <= i <= m)%nat -> Rabs (f i) <= max_abs f m.
Proof.
  induction m as [|m IH]; intros H; [lia|]. cbn [max_abs]. destruct (Nat.eq_dec i (S m)) as [->|N]; [apply Rmax_r|].
  eapply Rle_trans; [apply IH; lia|apply Rmax_l].
Qed.
Lemma search_spec norm x f sum0 lambda k : 0 < lambda -> 0 < search norm x f sum0 lambda k <= lambda.
Proof.
  revert lambda. induction k as [|k IH]; intros lambda P; cbn [search]; [lra|]. destruct (Rlt_dec _ _); [lra|]. specialize (IH (lambda / 2) ltac:(lra)). lra.
Qed.
(** C132: all potentials move along the correction, by the same positive fraction of it, and
    those with index up to 3M-1 by no more than the clamp. *)
Theorem C132_clamp_partial : forall M clamp norm x f sum0, 0 < clamp ->
  exists lambda, 0 < lambda <= 1 /\ (forall i, backtracking M clamp norm x f sum0 i - x i = lambda * f i) /\
    (forall i, (1 <= i <= 3 * M - 1)%nat -> Rabs (backtracking M clamp norm x f sum0 i - x i) <= clamp).
Proof.
  intros M clamp norm x f sum0 Pc. unfold backtracking. destruct (Rle_dec (max_abs f (3 * M - 1)) clamp) as [L|L].
  - exists 1. split; [lra|]. split; [intros; ring|]. intros i Hi. replace (x i + f i - x i) with (f i) by ring.
    eapply Rle_trans; [now apply max_abs_ge|exact L].
  - set (m := max_abs f (3 * M - 1)) in *. assert (Pl : 0 < clamp / m) by (apply Rdiv_lt_0_compat; lra).
    destruct (search_spec norm x f sum0 (clamp / m) 10 Pl) as [P1 P2]. set (l := search norm x f sum0 (clamp / m) 10) in *. clearbody l.
    assert (clamp / m < 1) by (apply (Rmult_lt_reg_r m); [lra|]; unfold Rdiv; rewrite Rmult_assoc, Rinv_l by lra; lra).
    exists l. split; [lra|]. unfold moved. split; [intros; ring|]. intros i Hi. replace (x i + l * f i - x i) with (l * f i) by ring.
    rewrite Rabs_mult, (Rabs_right l) by lra. pose proof (max_abs_ge f _ i Hi) as Mi. fold m in Mi.
    apply Rle_trans with (clamp / m * m); [|right; field; lra]. apply Rmult_le_compat; try lra. apply Rabs_pos.
Qed.
(** The potentials of the last node are not limited. *)
Theorem C132_clamp_refuted : exists M clamp norm x f sum0 i, 0 < clamp /\ (1 <= i <= 3 * M + 3)%nat /\
  clamp < Rabs (backtracking M clamp norm x f sum0 i - x i).
Proof.
  exists 1%nat, 20, (fun _ => 0), (fun _ => 0), (fun i => if (i =? 6)%nat then 100 else 0), 1, 6%nat. split; [lra|]. split; [lia|].
  unfold backtracking. cbn [Nat.mul Nat.add Nat.sub max_abs Nat.eqb]. rewrite !Rabs_R0, !(Rmax_left 0 0) by lra.
  destruct (Rle_dec 0 20); [|lra]. cbn [Nat.eqb]; rewrite Rabs_right; lra.
Qed.
(** A correction within the clamp is accepted whatever it does to the residual. *)
Theorem C132_decrease_refuted : exists M clamp (norm : (nat -> R) -> R) x f, 0 < clamp /\ norm x < norm (backtracking M clamp norm x f (norm x)).
Proof.
  exists 1%nat, 20, (fun g => g 1%nat), (fun _ => 0), (fun i => if (i =? 1)%nat then 1 else 0). split; [lra|].
  unfold backtracking. cbn [Nat.mul Nat.add Nat.sub max_abs Nat.eqb]. rewrite !Rabs_R0, Rabs_R1. rewrite !(Rmax_right 0 1), !(Rmax_left 1 0) by lra.
  destruct (Rle_dec 1 20); [cbn [Nat.eqb]|]; lra.
Qed.
Example C132_example : backtracking 1 20 (fun _ => 0) (fun _ => 0) (fun _ => 40) 1 1 = 20.
Proof.
  unfold backtracking. cbn [Nat.mul Nat.add Nat.sub max_abs]. rewrite (Rabs_right 40) by lra. rewrite !(Rmax_right 0 40), !(Rmax_left 40 40) by lra.
  destruct (Rle_dec 40 20); [lra|]. cbn [search]. destruct (Rlt_dec 0 (1 * (1 - 1 / 10000))); [|lra]. unfold moved. lra.
Qed.

(** * C133 *)

(** The fraction of the light of wavelength j absorbed in the device, by trapezia. *)
Definition absorptance (dX : nat -> R) (absp : nat -> nat -> R) (M j : nat) : R :=
  sum_to (fun k => (absp k j + absp (k + 1)%nat j) / 2 * dX k) M.
Lemma sum_to_scal c g m : sum_to (fun k => c * g k) m = c * sum_to g m.
Proof. induction m as [|m IH]; cbn [sum_to]; [ring|rewrite IH; ring]. Qed.
Lemma sum_to_swap (g : nat -> nat -> R) m m' : sum_to (fun k => sum_to (g k) m') m = sum_to (fun j => sum_to (fun k => g k j) m) m'.
Proof.
  induction m as [|m IH]; cbn [sum_to].
  - induction m' as [|m' IH']; cbn [sum_to]; [reflexivity|]. rewrite <- IH'. ring.
  - rewrite IH, <- sum_to_plus. reflexivity.
Qed.
(** C133: the photocurrent of the device is q times the integral (by trapezia) of the
    photon flux times the absorptance, and at most q times the photon flux. *)
Theorem C133_generation : forall dX wl spectrum absp m M,
  sum_to (generation dX wl spectrum absp m) M =
    dd_q * photon_flux wl (fun j => spectrum j * absorptance dX absp M j) m /\
  ((forall j, (j <= m)%nat -> 0 <= spectrum j /\ absorptance dX absp M j <= 1) -> (forall j, (j < m)%nat -> wl j <= wl (j + 1)%nat) ->
   sum_to (generation dX wl spectrum absp m) M <= dd_q * photon_flux wl spectrum m).
Proof.
  intros dX wl spectrum absp m M.
  assert (E : sum_to (generation dX wl spectrum absp m) M = dd_q * photon_flux wl (fun j => spectrum j * absorptance dX absp M j) m).
  { unfold generation, gen_node, photon_flux. rewrite <- sum_to_scal.
    rewrite (sum_to_ext _ (fun k => sum_to (fun j => (dd_q * (wl (j + 1)%nat - wl j) / 2) * spectrum j * ((absp k j + absp (k + 1)%nat j) / 2 * dX k) +
       (dd_q * (wl (j + 1)%nat - wl j) / 2) * spectrum (j + 1)%nat * ((absp k (j + 1)%nat + absp (k + 1)%nat (j + 1)%nat) / 2 * dX k)) m) M).
    - rewrite sum_to_swap. apply sum_to_ext. intros j _. rewrite sum_to_plus, !sum_to_scal. unfold absorptance. field.
    - intros k _. rewrite <- sum_to_plus. unfold Rdiv at 1. rewrite Rmult_assoc, Rmult_comm, <- sum_to_scal. apply sum_to_ext. intros j _. field. }
  split; [exact E|]. intros H W. rewrite E. apply Rmult_le_compat_l; [left; apply dd_q_pos|]. apply sum_to_le. intros j L.
  specialize (W j L). destruct (H j ltac:(lia)) as [H1 H2]. destruct (H (j + 1)%nat ltac:(lia)) as [H3 H4].
  apply Rmult_le_compat_r; [lra|]. assert (spectrum j * absorptance dX absp M j <= spectrum j * 1) by now apply Rmult_le_compat_l.
  assert (spectrum (j + 1)%nat * absorptance dX absp M (j + 1)%nat <= spectrum (j + 1)%nat * 1) by now apply Rmult_le_compat_l. lra.
Qed.
(** At one wavelength. *)
Lemma generation1_sum dX flux absp j M : sum_to (generation1 dX flux absp j) M = dd_q * flux * absorptance dX absp M j.
Proof. unfold generation1, absorptance. rewrite <- sum_to_scal. apply sum_to_ext. intros k _. field. Qed.
(** The light is full after the ramp, and darker by the factor 10 in each earlier step. *)
Theorem C133_ramp : forall solve d w g steps s, light_sc solve d w g (S steps) s =
    light_sc solve d w g steps (solve (with_G d (fun k => g k / 10 ^ steps)) w s) /\
  exists s', light_sc solve d w g (S steps) s = solve (with_G d (fun k => g k * 1)) w s'.
Proof.
  intros solve d w g steps s.
  assert (P : forall l, powerRZ 10 (1 - BinInt.Z.of_nat (S l)) = / 10 ^ l).
  { intros l. replace (1 - BinInt.Z.of_nat (S l))%Z with (- BinInt.Z.of_nat l)%Z by lia. rewrite powerRZ_neg'. now rewrite <- pow_powerRZ. }
  assert (A : forall l s0, light_sc solve d w g (S l) s0 = light_sc solve d w g l (solve (with_G d (fun k => g k / 10 ^ l)) w s0)).
  { intros l s0. cbn [light_sc]. rewrite P. reflexivity. }
  split; [apply A|]. revert s. induction steps as [|l IH]; intros s.
  - exists s. cbn [light_sc]. rewrite (P 0%nat). cbn [pow]. now rewrite Rinv_1.
  - rewrite A. apply IH.
Qed.
Example C133_example : photon_flux (fun j => INR j) (fun j => 3) 4 = 12 /\ absorptance (fun _ => 1 / 10) (fun _ _ => 1) 5 0 = 1 / 2.
Proof. unfold photon_flux, absorptance. cbn [sum_to]. split; [|lra]. rewrite !plus_INR. cbn [INR]. lra. Qed.

(** * C134 *)

(** Carriers generated at wavelength j are collected or lost in one of the five ways, for
    every behaviour of the solver. *)
Theorem C134_balance_partial : forall solve d w photonflux bias absp s0 numwl old j, photonflux <> 0 -> (j < numwl)%nat ->
  let r := run_iqe solve d w photonflux bias absp s0 numwl old j in
  q_col r + q_srh r + q_rad r + q_aug r + q_front r + q_back r = absorptance (d_dX d) absp (d_M d) j.
Proof.
  intros solve d w photonflux bias absp s0 numwl old j Pf L r. subst r. unfold run_iqe. set (flux := photonflux / 10 ^ 8).
  assert (Pfl : flux <> 0) by (unfold flux, Rdiv; apply Rmult_integral_contrapositive_currified; [assumption|apply Rinv_neq_0_compat, pow_nonzero; lra]).
  clearbody flux. pose proof dd_q_pos as Pq. induction numwl as [|i IH]; [lia|]. cbn [iqe_loop].
  destruct (iqe_loop solve d w flux bias absp s0 i old) as [s r] eqn:E. cbn [snd] in *. destruct (Nat.eqb_spec j i) as [->|N]; [|apply IH; lia].
  unfold qe_point. cbn [q_col q_srh q_rad q_aug q_front q_back].
  set (d1 := with_G d (fun k => generation1 (d_dX d) flux absp i k + bias k)). set (s1 := solve d1 w s).
  rewrite (proj1 (C127_balance d1 s1 w)), (proj1 (C127_balance (with_G d bias) s0 w)).
  assert (A : sum_to (d_G d1) (d_M d1) = dd_q * flux * absorptance (d_dX d) absp (d_M d) i + sum_to bias (d_M d)).
  { unfold d1. cbn [with_G d_G d_M]. rewrite sum_to_plus, generation1_sum. reflexivity. }
  rewrite A. cbn [with_G d_G d_M]. field. split; lra.
Qed.
(** The last wavelength is not computed: whatever was there before is reported. *)
Theorem C134_last_refuted : forall solve d w photonflux bias absp s0 numwl old,
  run_iqe solve d w photonflux bias absp s0 numwl old numwl = old numwl.
Proof.
  intros. unfold run_iqe. assert (H : forall m j, (m <= j)%nat -> snd (iqe_loop solve d w (photonflux / 10 ^ 8) bias absp s0 m old) j = old j); [|now apply H].
  induction m as [|m IH]; intros j L; [reflexivity|]. cbn [iqe_loop]. destruct (iqe_loop solve d w (photonflux / 10 ^ 8) bias absp s0 m old) as [s r] eqn:E.
  cbn [snd] in *. rewrite (proj2 (Nat.eqb_neq j m)) by lia. apply IH. lia.
Qed.
Example C134_example : exists solve d w s0 absp old, (0 < 1)%nat /\
  q_col (run_iqe solve d w 1 (fun _ => 0) absp s0 1 old 0) = 1 / 2.
Proof.
  exists (fun _ _ s => s), (one_dev 0 1), one_bnd, one_pot, (fun _ _ => 1 / 2), (fun _ => mkQes 0 0 0 0 0 0). split; [lia|].
  pose proof (C134_balance_partial (fun _ _ s => s) (one_dev 0 1) one_bnd 1 (fun _ => 0) (fun _ _ => 1 / 2) one_pot 1 (fun _ => mkQes 0 0 0 0 0 0) 0 ltac:(lra) ltac:(lia)) as B.
  cbv zeta in B. unfold absorptance in B. cbn [one_dev d_dX d_M sum_to] in B. unfold run_iqe in *. cbn [iqe_loop snd Nat.eqb] in *. unfold qe_point in *.
  cbn [q_col q_srh q_rad q_aug q_front q_back] in *. match type of B with ?a + ?b + ?c + ?e + ?f + ?g = _ => assert (b = 0); [|assert (c = 0); [|assert (e = 0); [|assert (f = 0); [|assert (g = 0); [|lra]]]]] end;
    match goal with |- (?x - ?y) / _ / _ = 0 => replace (x - y) with 0; [unfold Rdiv; ring|symmetry; apply Rminus_diag_eq; reflexivity] end.
Qed.

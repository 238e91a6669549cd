(** Model of solcore/analytic_solar_cells/depletion_approximation.py: finding the
    layers of a junction, depletion widths, dark currents (diffusion and
    Shockley-Read-Hall) and the Green's function kernels of the photocurrent.
    Arrays of voltages are treated one voltage at a time (every formula below is
    elementwise in the source).  [solve_bvp] and [quad_vec] are numerical library
    routines; they are represented by what they approximate (a solution of the
    boundary value problem, the integral). *)
From Coq Require Import Reals String Ascii List Arith Bool.
From Coq Require Import Rtrigo_def.
From Verif Require Import Common PhysConst.
Import ListNotations.
Open Scope R_scope.
Open Scope list_scope.

(** * identify_layers *)
(** What [identify_layers] reads of a layer: structure.py Layer (role may be None,
    in which case [.lower()] is an AttributeError) and the doping attributes of its
    material (None = no such attribute) (for [layers_found], depletion_approximation.py, line 93). *)
Record layer := { l_role : option string; l_Na : option R; l_Nd : option R; l_width : R }.

(** [str.lower], on ASCII text (used in depletion_approximation.py:25, 47, 50, 72). *)
Definition lower_char (a : ascii) : ascii :=
  let n := nat_of_ascii a in
  if (65 <=? n)%nat && (n <=? 90)%nat then ascii_of_nat (n + 32) else a.
(** With [lower_char], depletion_approximation.py:25, 47, 50, 72. *)
Fixpoint lower (s : string) : string :=
  match s with EmptyString => EmptyString | String a r => String (lower_char a) (lower r) end.

(** For [layers_found], depletion_approximation.py, line 93. *)
Inductive polarity := PN | NP.

(** The result tuple of [identify_layers], line 93; regions are given as the layers. *)
Record layers_found := {
  f_top : nat; f_bottom : nat; f_p : layer; f_n : layer; f_i : option layer; f_pol : polarity }.

(** The loop of lines 24-42: the position of the first emitter ([length l] if there is
    none); a layer whose role is None before it raises. *)
Fixpoint find_emitter (l : list layer) (idx : nat) : res (nat * option layer) :=
  match l with
  | [] => Ok (idx, None)
  | x :: r =>
      match l_role x with
      | None => Err AttributeError
      | Some s => if String.eqb (lower s) "emitter" then Ok (idx, Some x) else find_emitter r (S idx)
      end
  end.

(** Lines 28-38: the emitter is n-type when Na < Nd, missing attributes being 0. *)
Definition dop (o : option R) : R := match o with Some x => x | None => 0 end.
(** With [dop], depletion_approximation.py, lines 28-38. *)
Definition emitter_polarity (x : layer) : polarity :=
  if Rlt_dec (dop (l_Na x)) (dop (l_Nd x)) then NP else PN.

(** List indexing [junction[i]] and [.role.lower()], lines 45-79. *)
Definition get_layer (l : list layer) (i : nat) : res layer :=
  match nth_error l i with Some x => Ok x | None => Err IndexError end.
(** With [get_layer], depletion_approximation.py, lines 45-79. *)
Definition role_of (x : layer) : res string :=
  match l_role x with None => Err AttributeError | Some s => Ok (lower s) end.

(** The p and n regions given emitter and base, lines 34-38, 49-53, 71-75. *)
Definition regions (pol : polarity) (em base : layer) : layer * layer :=
  match pol with PN => (em, base) | NP => (base, em) end.

(** [identify_layers], depletion_approximation.py:17-93.  When no emitter is found the
    index is past the end and line 45 raises IndexError, whatever the polarity. *)
Definition identify_layers (l : list layer) : res layers_found :=
  let! p := find_emitter l 0 in
  let (idx, em) := p : nat * option layer in
  let! nxt := get_layer l (idx + 1) in
  let! r1 := role_of nxt in
  match em with
  | None => Err UnboundLocalError
  | Some e =>
      let pol := emitter_polarity e in
      if String.eqb r1 "intrinsic" then
        let! b := get_layer l (idx + 2) in
        let! r2 := role_of b in
        if String.eqb r2 "base" then
          Ok {| f_top := idx; f_bottom := idx + 2; f_p := fst (regions pol e b); f_n := snd (regions pol e b);
                f_i := Some nxt; f_pol := pol |}
        else Err RuntimeError
      else if String.eqb r1 "base" then
        Ok {| f_top := idx; f_bottom := idx + 1; f_p := fst (regions pol e nxt); f_n := snd (regions pol e nxt);
              f_i := None; f_pol := pol |}
      else Err RuntimeError
  end.

(** * Depletion widths *)
(** Attributes of the junction read by [get_depletion_widths]; [j_one_sided] says
    whether depletion_approximation == "one-sided abrupt" (for [dark_terms], depletion_approximation.py, line 209). *)
Record dep_attrs := { j_one_sided : bool; j_wn : option R; j_wp : option R }.

(** [get_depletion_widths], depletion_approximation.py:962-993, for one voltage. *)
Definition wn_formula (one : bool) (es Vbi V Na Nd xi : R) : R :=
  if one then sqrt (2 * es * (Vbi - V) / (q * Nd))
  else (- xi + sqrt (xi ^ 2 + 2 * es * (Vbi - V) / q * (1 / Na + 1 / Nd))) / (1 + Nd / Na).
(** With [wn_formula], depletion_approximation.py:962-993. *)
Definition wp_formula (one : bool) (es Vbi V Na Nd xi : R) : R :=
  if one then sqrt (2 * es * (Vbi - V) / (q * Na))
  else (- xi + sqrt (xi ^ 2 + 2 * es * (Vbi - V) / q * (1 / Na + 1 / Nd))) / (1 + Na / Nd).
(** With [wn_formula], depletion_approximation.py:962-993. *)
Definition or_attr (o : option R) (v : R) : R := match o with Some x => x | None => v end.
(** With [wn_formula], depletion_approximation.py:962-993. *)
Definition get_depletion_widths (j : dep_attrs) (es_n es_p Vbi V Na Nd xi : R) : R * R :=
  (or_attr (j_wn j) (wn_formula (j_one_sided j) es_n Vbi V Na Nd xi),
   or_attr (j_wp j) (wp_formula (j_one_sided j) es_p Vbi V Na Nd xi)).

(** The bias actually used, lines 200-202, and the widths clipped to the layers,
    lines 209-210. *)
Definition clamp_bias (Vbi v : R) : R := if Rlt_dec v (Vbi - / 1000) then v else Vbi - / 1000.
(** With [clamp_bias], depletion_approximation.py, lines 200-202, lines 209-210. *)
Definition clip_width (w x : R) : R := if Rlt_dec x w then x else w.

(** * Diffusion dark current: [get_j_dark], depletion_approximation.py:354-387. *)
(** For [dark_terms], depletion_approximation.py, line 209. *)
Definition harg (x w L : R) : R := let a := (x - w) / L in if Rlt_dec 200 a then 200 else a.
(** For [dark_terms], depletion_approximation.py, line 209. *)
Definition surface_factor (lsod a : R) : R := (lsod * cosh a + sinh a) / (lsod * sinh a + cosh a).
(** For [dark_terms], depletion_approximation.py, line 209. *)
Definition get_j_dark (x w L s d V minority T : R) : R :=
  (q * d * minority / L) * (exp (q * V / kb / T) - 1) * surface_factor (L * s / d) (harg x w L).

(** * Shockley-Read-Hall current *)
(** [factor], depletion_approximation.py:417-453, for one voltage.  None is the nan of
    a division by zero (numpy warns and carries on).  The three masks are applied in
    order, so the last assignment wins at b = 1e7. *)
Definition sah_b (V tp tn kbT dEt : R) : R :=
  exp (- q * V / kbT / 2) * cosh (q * dEt / kbT + ln (tp / tn) / 2).
(** With [sah_b], depletion_approximation.py:417-453. *)
Definition sah_z1 (V Vbi tp tn kbT : R) : R := sqrt (tp / tn) * exp (- q * (Vbi - V) / kbT / 2).
(** With [sah_b], depletion_approximation.py:417-453. *)
Definition sah_z2 (V Vbi tp tn kbT : R) : R := sqrt (tp / tn) * exp (q * (Vbi - V) / kbT / 2).
(** With [sah_b], depletion_approximation.py:417-453. *)
Definition factor_low (b z1 z2 : R) : R :=
  (atan ((b + z2) / sqrt (1 - b ^ 2)) - atan ((b + z1) / sqrt (1 - b ^ 2))) / sqrt (1 - b ^ 2).
(** With [sah_b], depletion_approximation.py:417-453. *)
Definition factor_mid (b z1 z2 : R) : option R :=
  let yy := sqrt (b ^ 2 - 1) in
  if Req_EM_T yy 0 then None
  else Some ((ln (Rabs (z2 - yy + b) / Rabs (z2 + yy + b)) - ln (Rabs (z1 - yy + b) / Rabs (z1 + yy + b))) / (2 * yy)).
(** With [sah_b], depletion_approximation.py:417-453. *)
Definition factor_high (b z1 z2 : R) : R :=
  ((ln z2 - ln (z2 + 2 * b)) - (ln z1 - ln (z1 + 2 * b))) / (2 * b).
(** With [sah_b], depletion_approximation.py:417-453. *)
Definition factor_at (b z1 z2 : R) : option R :=
  if Rlt_dec b 1 then Some (factor_low b z1 z2)
  else if Rlt_dec b (10 ^ 7) then factor_mid b z1 z2
  else Some (factor_high b z1 z2).
(** With [sah_b], depletion_approximation.py:417-453. *)
Definition factor (V Vbi tp tn kbT dEt : R) : option R :=
  factor_at (sah_b V tp tn kbT dEt) (sah_z1 V Vbi tp tn kbT) (sah_z2 V Vbi tp tn kbT).

(** [forward], depletion_approximation.py:406-414, and [get_Jsrh], lines 390-403. *)
Definition forward (ni V Vbi tp tn w kbT dEt : R) : option R :=
  match factor V Vbi tp tn kbT dEt with
  | None => None
  | Some f => Some ((2 * q * ni * w / sqrt (tn * tp)) * sinh (q * V / (2 * kbT)) / (q * (Vbi - V) / kbT) * f)
  end.
(** With [forward], depletion_approximation.py:406-414, lines 390-403. *)
Definition get_Jsrh (ni V Vbi tp tn w kbT : R) : option R :=
  if Rle_dec (- 1120 * kbT / q) V then forward ni V Vbi tp tn w kbT 0 else Some 0.

(** * Dark IV of a junction: iv_depletion, depletion_approximation.py:147-351 with
    light_iv False, for one internal voltage.  The parameters are those returned by
    [identify_parameters] (lines 96-144, see DepLightModel.v). *)
(** For [internal_bias], depletion_approximation.py, lines 168-173. *)
Record dep_par := {
  p_xn : R; p_xp : R; p_xi : R; p_sn : R; p_sp : R; p_ln : R; p_lp : R; p_dn : R; p_dp : R;
  p_Nd : R; p_Na : R; p_ni : R; p_esn : R; p_esp : R; p_T : R; p_Rsh : option R; p_Vbi : option R }.
(** For [internal_bias], depletion_approximation.py, lines 168-173. *)
Definition built_in (p : dep_par) : R :=
  match p_Vbi p with Some v => v | None => kb * p_T p / q * ln (p_Nd p * p_Na p / p_ni p ^ 2) end.
(** For [dark_current], depletion_approximation.py, lines 328-333. *)
Definition shunt (p : dep_par) : R := match p_Rsh p with Some r => Rmin r (10 ^ 14) | None => 10 ^ 14 end.
(** For [internal_bias], depletion_approximation.py, lines 168-173. *)
Definition pol_sign (pol : polarity) : R := match pol with PN => 1 | NP => - 1 end.

(** The forward-positive bias, lines 168-173 and 202. *)
Definition internal_bias (pol : polarity) (p : dep_par) (v : R) : R := clamp_bias (built_in p) (pol_sign pol * v).

(** [attributes_ok]: wn and wp given on the junction must be arrays for line 209
    (item assignment on a float is a TypeError); here they are never given. *)
Definition dark_terms (one : bool) (pol : polarity) (p : dep_par) (v : R) : R * R * option R :=
  let V := internal_bias pol p v in
  let ww := get_depletion_widths {| j_one_sided := one; j_wn := None; j_wp := None |}
              (p_esn p) (p_esp p) (built_in p) V (p_Na p) (p_Nd p) (p_xi p) in
  let wn := clip_width (fst ww) (p_xn p) in
  let wp := clip_width (snd ww) (p_xp p) in
  let Jp := get_j_dark (p_xp p) wp (p_ln p) (p_sp p) (p_dp p) V (p_ni p ^ 2 / p_Na p) (p_T p) in
  let Jn := get_j_dark (p_xn p) wn (p_lp p) (p_sn p) (p_dn p) V (p_ni p ^ 2 / p_Nd p) (p_T p) in
  let tn := p_ln p ^ 2 / p_dn p in
  let tp := p_lp p ^ 2 / p_dp p in
  (Jn, Jp, get_Jsrh (p_ni p) V (built_in p) tp tn (wn + wp + p_xi p) (kb * p_T p)).

(** Lines 328-333: the current stored for that voltage; None is nan. *)
Definition dark_current (one : bool) (pol : polarity) (p : dep_par) (v : R) : option R :=
  let '(Jn, Jp, Jrec) := dark_terms one pol p v in
  match Jrec with
  | None => None
  | Some j => Some (pol_sign pol * (j + Jn + Jp + internal_bias pol p v / shunt p - 0 - 0 - 0))
  end.

(** * Photocurrent of a neutral region *)
(** For [green_integrand], depletion_approximation.py, lines 622-676, lines 649-676. *)
Inductive side := Top | Bottom.

(** The integrands of depletion_approximation.py:523-619; [g] is the generation
    profile at one wavelength (or integrated over wavelength). *)
Definition conv_exp_top (xa xb : R) (g : R -> R) (L phoD x : R) : R := - exp ((xa - x) / L) * (g (xa + xb - x) * phoD).
(** With [conv_exp_top], depletion_approximation.py:523-619. *)
Definition conv_exp_bottom (xa : R) (g : R -> R) (L phoD x : R) : R := exp ((xa - x) / L) * (g x * phoD).
(** With [conv_exp_top], depletion_approximation.py:523-619. *)
Definition conv_green_top (xa xb : R) (g : R -> R) (L phoD crvel x : R) : R :=
  (cosh ((xb - x) / L) + crvel * sinh ((xb - x) / L)) * (g (xa + xb - x) * phoD).
(** With [conv_exp_top], depletion_approximation.py:523-619. *)
Definition conv_green_bottom (xb : R) (g : R -> R) (L phoD crvel x : R) : R :=
  (cosh ((xb - x) / L) - crvel * sinh ((xb - x) / L)) * (g x * phoD).

(** [get_J_sc_diffusion_green], lines 622-676, split into the integrand handed to
    [quad_vec] and the constant its result is divided by (lines 649-676). *)
Definition green_integrand (xa xb : R) (g : R -> R) (D L S ph : R) (sd : side) : R -> R :=
  let crvel := S / D * L in
  if Rlt_dec 100 ((xb - xa) / L) then
    match sd with Top => conv_exp_top xa xb g L (ph / D) | Bottom => conv_exp_bottom xa g L (ph / D) end
  else
    match sd with Top => conv_green_top xa xb g L (ph / D) crvel
                | Bottom => conv_green_bottom xb g L (ph / D) (- crvel) end.
(** With [green_integrand], depletion_approximation.py, lines 622-676, lines 649-676. *)
Definition green_cp (xa xb D L S : R) (sd : side) : R :=
  let xbL := (xb - xa) / L in
  let crvel := S / D * L in
  if Rlt_dec 100 xbL then 1
  else match sd with Top => - cosh xbL - crvel * sinh xbL | Bottom => cosh xbL + crvel * sinh xbL end.

(** The boundary value problem handed to [solve_bvp] in bvp mode, lines 481-501 and
    891-934: [y] with derivative [y'] solves it on [xa, xb] for the generation [gph]
    (generation times photon flux).  The source interpolates [gph] linearly between 1001
    mesh points; here it is the function itself. *)
Definition bvp_rhs (gph : R -> R) (D L y0 : R) (y : R -> R) (x : R) : R :=
  y x / L ^ 2 - (gph x / D + y0 / L ^ 2).
(** With [bvp_rhs], depletion_approximation.py, lines 481-501 and 891-934. *)
Definition bvp_bc (xa xb D S y0 : R) (y y' : R -> R) (sd : side) : Prop :=
  match sd with
  | Top => y' xa - S / D * (y xa - y0) = 0 /\ y xb - y0 = 0
  | Bottom => y xa - y0 = 0 /\ y' xb + S / D * (y xb - y0) = 0
  end.
(** The value taken out of the solution, lines 508-511 and 944-948. *)
Definition bvp_out (xa xb : R) (y' : R -> R) (sd : side) : R := match sd with Top => y' xb | Bottom => y' xa end.

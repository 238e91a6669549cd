(** Model of solcore/analytic_solar_cells/detailed_balance.py:13-79 ([iv_detailed_balance]) in the
    full Planck mode (lines 56-66); the parts shared with the Boltzmann mode are those of
    [DetBalModel]. *)
From Coq Require Import Reals List Arith Bool.
From Verif Require Import Common PhysConst InterpModel NpModel DetBalModel.
Import ListNotations.
Open Scope R_scope.
Open Scope list_scope.

(** Line 58: the voltages limited to the gap. *)
Definition limited (Eg v : R) : R := if Rlt_dec v (Eg - / 1000) then v else Eg - / 1000.
(** Line 63: one value of [fermi]. *)
Definition planck_term (T v A l : R) : R := (A / l ^ 4) / (exp ((h * c / l - q * v) / (kb * T)) - 1).
(** A photon energy equal to the voltage makes the denominator zero: numpy yields nan or inf (for [planck_emission], detailed_balance.py, lines 60-65). *)
Definition resonant (v l : R) : bool := if Req_EM_T (h * c / l) (q * v) then true else false.
(** Lines 60-65: [emis] for one voltage; [None] is nan or inf. *)
Definition planck_emission (n : R) (As wl : list R) (v T : R) : option R :=
  if existsb (resonant v) wl then None
  else Some (2 * q * n ^ 2 * c * np_trapz (map (fun p => planck_term T v (fst p) (snd p)) (combine As wl)) wl).
(** With [planck_emission], detailed_balance.py, lines 60-65. *)
Definition omap2 (f : R -> R -> R) (a b : option R) : option R :=
  match a, b with Some x, Some y => Some (f x y) | _, _ => None end.

(** Lines 13-76 with [db_mode] other than "boltzmann": the junction afterwards (no attribute
    [j01] is set) and the current array. *)
Definition iv_db_planck (j : db_junction) (T Ta : R) (light : bool) (steps : nat) (wl ph volts : list R)
  : res (db_junction * list (option R)) :=
  let! Eg := attr (b_Eg j) in
  let! n := attr (b_n j) in
  let! j1 := match b_eqe j with Some _ => Ok j | None => qe_db j wl end in
  let! eqe := attr (b_eqe j1) in
  let! refl := attr (b_reflected j1) in
  let! absorb := attr (b_absorptance j1) in
  let As := map (fun l => surface_integral steps (refl l) (absorb l)) wl in
  let Rsh := match b_Rsh j1 with Some r => Rmin r (10 ^ 14) | None => 10 ^ 14 end in
  let jthermal := planck_emission n As wl 0 Ta in
  let photo := if light then q * np_trapz (map (fun p => fst p * snd p) (combine (map eqe wl) ph)) wl else 0 in
  let jsc := omap2 Rplus (Some photo) jthermal in
  Ok (j1, map (fun v => omap2 (fun e s => e + limited Eg v / Rsh - s) (planck_emission n As wl (limited Eg v) T) jsc) volts).

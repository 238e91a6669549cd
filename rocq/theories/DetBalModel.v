(** Model of solcore/analytic_solar_cells/detailed_balance.py (the Boltzmann mode of
    the IV solver; the full Planck mode, lines 56-66, is in DbPlanckModel.v). *)
From Coq Require Import Reals List Arith Bool.
From Verif Require Import Common PhysConst InterpModel NpModel.
Import ListNotations.
Open Scope R_scope.
Open Scope list_scope.

(** The attributes of a junction of kind DB; None is a missing attribute.
    [b_absorbed] is the generation profile as a function of depth and wavelength (for [qe_db], detailed_balance.py:82-103). *)
Record db_junction := {
  b_Eg : option R; b_n : option R; b_A : option R; b_Rsh : option R; b_width : option R;
  b_absorptance : option (R -> R); b_eqe : option (R -> R);
  b_absorbed : option (R -> R -> R); b_reflected : option (R -> R); b_j01 : option R
}.
(** For [qe_db], detailed_balance.py:82-103. *)
Definition attr {A} (o : option A) : res A := match o with Some x => Ok x | None => Err AttributeError end.

(** For [qe_db], detailed_balance.py:82-103. *)
Definition with_absorptance (j : db_junction) (f : R -> R) : db_junction :=
  {| b_Eg := b_Eg j; b_n := b_n j; b_A := b_A j; b_Rsh := b_Rsh j; b_width := b_width j;
     b_absorptance := Some f; b_eqe := b_eqe j; b_absorbed := b_absorbed j; b_reflected := b_reflected j; b_j01 := b_j01 j |}.
(** For [qe_db], detailed_balance.py:82-103. *)
Definition with_eqe (j : db_junction) (f : R -> R) : db_junction :=
  {| b_Eg := b_Eg j; b_n := b_n j; b_A := b_A j; b_Rsh := b_Rsh j; b_width := b_width j;
     b_absorptance := b_absorptance j; b_eqe := Some f; b_absorbed := b_absorbed j; b_reflected := b_reflected j; b_j01 := b_j01 j |}.
(** For [iv_db], detailed_balance.py:13-79. *)
Definition with_j01 (j : db_junction) (v : R) : db_junction :=
  {| b_Eg := b_Eg j; b_n := b_n j; b_A := b_A j; b_Rsh := b_Rsh j; b_width := b_width j;
     b_absorptance := b_absorptance j; b_eqe := b_eqe j; b_absorbed := b_absorbed j; b_reflected := b_reflected j; b_j01 := Some v |}.

(** [absorptance_detailed_balance], detailed_balance.py:106-126.  A zero gap is a
    ZeroDivisionError. *)
Definition top_hat (A wlg wl : R) : R := A * (if Rlt_dec wl wlg then 1 else 0).
(** With [top_hat], detailed_balance.py:106-126. *)
Definition absorptance_db (j : db_junction) : res db_junction :=
  match b_absorptance j with
  | Some _ => Ok j
  | None =>
      let! Eg := attr (b_Eg j) in
      if Req_EM_T Eg 0 then Err ZeroDivisionError else
      let! A0 := attr (b_A j) in
      Ok (with_absorptance j (top_hat (Rmin A0 1) (1240 / Eg / 10 ^ 9)))
  end.

(** [np.linspace(0, width, 1001)], line 95. *)
Definition linspace (a b : R) (n : nat) : list R := map (fun i => a + (b - a) * INR i / INR (n - 1)) (seq 0 n).

(** The number of depth points, line 95. *)
Definition depth_points : nat := (1001)%nat.
Global Opaque depth_points.

(** [qe_detailed_balance], detailed_balance.py:82-103. *)
Definition qe_db (j : db_junction) (wl : list R) : res db_junction :=
  let! j1 := absorptance_db j in
  let! iqe := attr (b_absorptance j1) in
  match b_width j1, b_absorbed j1 with
  | Some w, Some prof =>
      let z := linspace 0 w depth_points in
      let abs_vs_wl := map (fun l => np_trapz (map (fun x => prof x l) z) z) wl in
      Ok (with_eqe j1 (scipy_interp wl abs_vs_wl 0 0))
  | _, _ => Ok (with_eqe j1 iqe)
  end.

(** * The surface integral *)

(** The effective index, the critical angle and the internal reflection, lines
    136-156, for one wavelength; [t] is a cosine. *)
Definition Rn (r : R) : R := Rmin (999999 / 10 ^ 6) r.
(** With [Rn], detailed_balance.py, lines 136-156. *)
Definition neff (r : R) : R := (1 + sqrt (Rn r)) / (1 - sqrt (Rn r)).
(** With [Rn], detailed_balance.py, lines 136-156. *)
Definition cos_tc (r : R) : R := sqrt (1 - 1 / neff r ^ 2).
(** With [Rn], detailed_balance.py, lines 136-156. *)
Definition internal_R (r t : R) : R :=
  if Rlt_dec (cos_tc r) t then
    let n := neff r in
    let ci := sqrt (1 - n ^ 2 * (1 - t ^ 2)) in
    (((ci - n * t) / (ci + n * t)) ^ 2 + ((t - n * ci) / (t + n * ci)) ^ 2) / 2
  else (1 + 1) / 2.
(** [B ** (1 / t)] for B >= 0. *)
Definition rpow (b e : R) : R := if Req_EM_T b 0 then 0 else Rpower b e.
(** [surface_integral], detailed_balance.py:129-179, for one wavelength with
    reflectance [r] and absorptance [a]; [steps], which is computed from all
    wavelengths (line 142), is a parameter. *)
Definition surface_integral (steps : nat) (r a : R) : R :=
  let B := 1 - a in
  let cos_t := linspace (/ 1000) 1 steps in
  let inner := map (fun i => nth i cos_t 0) (seq 1 (steps - 2)) in
  let R1 := internal_R r (nth (steps - 1) cos_t 0) in
  let back := fold_left (fun acc t => acc + (1 + internal_R r t * rpow B (1 / t)) * (1 - rpow B (1 / t)) * t) inner
                        (1 / 2 * (1 + R1 * B) * (1 - B)) in
  let front := fold_left (fun acc t => acc + (1 - internal_R r t) * (1 - rpow B (1 / t)) * t) inner
                        (1 / 2 * (1 - R1) * (1 - B)) in
  2 * PI * (back / (INR steps + 1) + front / (INR steps + 1)).

(** * The IV curve *)

(** The emitted current at zero bias, the integral of lines 51-53; [As] are the
    surface integrals. *)
Definition emission (n : R) (As wl : list R) (T : R) : R :=
  np_trapz (map (fun p => 2 * q * n ^ 2 * c * (fst p / snd p ^ 4) * exp (- (h * c / snd p) / (kb * T))) (combine As wl)) wl.

(** [iv_detailed_balance], detailed_balance.py:13-79, in Boltzmann mode: the
    junction afterwards and its current array.  [steps] as above; [ph] is the photon
    flux per metre of the light source at [wl]; [light] is options.light_iv. *)
Definition iv_db (j : db_junction) (T Ta : R) (light : bool) (steps : nat) (wl ph volts : list R)
  : res (db_junction * list R) :=
  let! _ := attr (b_Eg j) in
  let! n := attr (b_n j) in
  let! j1 := match b_eqe j with Some _ => Ok j | None => qe_db j wl end in
  let! eqe := attr (b_eqe j1) in
  let! refl := attr (b_reflected j1) in
  let! absorb := attr (b_absorptance j1) in
  let As := map (fun l => surface_integral steps (refl l) (absorb l)) wl in
  let Rsh := match b_Rsh j1 with Some r => Rmin r (10 ^ 14) | None => 10 ^ 14 end in
  let emis v T := emission n As wl T * exp (q * v / (kb * T)) in
  let jthermal := emis 0 Ta in
  let jsc := if light then q * np_trapz (map (fun p => fst p * snd p) (combine (map eqe wl) ph)) wl + jthermal else jthermal in
  Ok (with_j01 j1 (emission n As wl T), map (fun v => emis v T + v / Rsh - jsc) volts).

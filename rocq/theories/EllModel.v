(** Model of solcore/absorption_calculator/tmm_core_vec.py:363-374 ([ellips]) and of
    solcore/absorption_calculator/transfer_matrix.py:586-652 ([calculate_ellipsometry]). *)
From Coq Require Import Reals String List Arith Bool.
From Coquelicot Require Import Complex.
From Verif Require Import Common TmmModel StackModel RatModel.
From Coq Require Import List.
Import ListNotations.
Open Scope R_scope.
Open Scope list_scope.

(** [numpy.angle] (tmm_core_vec.py:374): [arctan2(Im z, Re z)], in (-pi, pi]. Signed zeros are
    not distinguished; the angle of zero is zero. *)
Definition angle (z : C) : R :=
  if Rlt_dec 0 (Re z) then atan (Im z / Re z)
  else if Rlt_dec (Re z) 0 then
    (if Rle_dec 0 (Im z) then atan (Im z / Re z) + PI else atan (Im z / Re z) - PI)
  else if Rlt_dec 0 (Im z) then PI / 2
  else if Rlt_dec (Im z) 0 then - (PI / 2) else 0.

(** tmm_core_vec.py:363-374 [ellips] at one wavelength: psi and Delta in radians. Where the
    amplitude [rs] is zero numpy divides by zero and Delta is nan; [None] stands for both
    numbers there (simplification: psi itself is then 90 degrees or nan). *)
Definition ellips (ns : list C) (ds : list (option R)) (s0 c0 : C) (lam : R) : res (option (R * R)) :=
  let! s := coh_tmm "s" ns ds s0 c0 lam in
  let! p := coh_tmm "p" ns ds s0 c0 lam in
  if Ceq_dec (cd_r s) (RtoC 0) then Ok None
  else Ok (Some (atan (Cmod (cd_r p / cd_r s)%C), angle (- cd_r p / cd_r s)%C)).

(** transfer_matrix.py:638-650: psi and Delta in degrees, with the two [np.where]. *)
Definition fold_delta (d : R) : R :=
  let d1 := - d / (PI / 180) in
  let d2 := if Rlt_dec 0 d1 then - d1 else d1 in
  if Rlt_dec d2 180 then 180 - d2 else d2.
(** With [fold_delta], transfer_matrix.py:638-650. *)
Definition in_degrees (v : option (R * R)) : option (R * R) :=
  match v with
  | None => None
  | Some (psi, d) => Some (psi / (PI / 180), fold_delta d)
  end.

(** Lines 608-614: the deprecated keyword [no_back_reflexion] replaces the argument. *)
Definition the_flag (noback : bool) (kw : option bool) : bool :=
  match kw with Some b => b | None => noback end.
(** Line 621: the flag is stored in the stack given, and stays there. *)
Definition set_noback (o : outer) (b : bool) : outer := Outer (o_sub o) (o_inc o) b.
(** One entry [(wavelength, angle)] of the arrays of lines 633-650. *)
Definition ell_entry (o : outer) (s : stack) (ang wl : R) : res (option (R * R)) :=
  let! ns := get_indices o s wl in
  let! v := ellips ns (get_widths o s) (RtoC (sin (radians ang))) (RtoC (cos (radians ang))) wl in
  Ok (in_degrees v).
(** transfer_matrix.py:586-652 [calculate_ellipsometry] for an OptiStack: the columns of the
    two arrays "psi" and "Delta", one for each angle, and the stack afterwards. The
    wavelengths of a column are computed together in the source. *)
Definition calculate_ellipsometry (o : outer) (s : stack) (wls angs : list R) (noback : bool)
  (kw : option bool) : res (list (list (option (R * R)))) * outer :=
  let o' := set_noback o (the_flag noback kw) in
  (mapRR (fun ang => mapRR (ell_entry o' s ang) wls) angs, o').

(** Model of solcore/absorption_calculator/transfer_matrix.py:414-583 ([calculate_rat]) and
    655-817 ([calculate_absorption_profile], coherent part), and of solcore/optics/tmm.py
    ([solve_tmm], [absorbed], [calculate_absorption_tmm]). *)
From Coq Require Import Reals String List Arith Bool.
From Coquelicot Require Import Complex.
From Verif Require Import Common InterpModel NpModel TmmModel TmmLayersModel IncModel StackModel.
From Coq Require Import List.
Import ListNotations.
Open Scope R_scope.
Open Scope list_scope.

(** * transfer_matrix.py:414-583 [calculate_rat], at one wavelength *)
(** [angle * degree] with transfer_matrix.py:17. *)
Definition radians (angle : R) : R := angle * (PI / 180).
(** The test [pol in "sp"] of line 492: substrings of "sp". *)
Definition in_sp (pol : string) : bool :=
  String.eqb pol "s" || String.eqb pol "p" || String.eqb pol "sp" || String.eqb pol "".
(** The entries "out" of the result: the dictionaries of [coh_tmm] and [inc_tmm]. For
    unpolarised light first s, then p (for [calculate_rat], line 454). *)
Inductive rat_out : Type :=
| OutCoh : coh_data -> list R -> rat_out
| OutCoh2 : coh_data -> list R -> coh_data -> list R -> rat_out
| OutInc : inc_data -> rat_out
| OutInc2 : inc_data -> inc_data -> rat_out.
(** The returned dictionary: "R", "A", "T", "A_per_layer" and the above (for [calculate_rat], line 454). *)
Record rat : Type := Rat { ra_R : R; ra_A : R; ra_T : R; ra_layers : list R; ra_out : rat_out }.
(** [0.5 * (A_per_layer_p + A_per_layer_s)], lines 543 and 576. *)
Definition halves (p s : list R) : list R := map (fun x => / 2 * (fst x + snd x)) (combine p s).
(** Lines 467-470: the list handed to [inc_tmm]. *)
Definition padded (noback : bool) (cl : list string) : list string :=
  if noback then ["i"%string] ++ cl ++ ["i"%string; "i"%string] else ["i"%string] ++ cl ++ ["i"%string].
(** Lines 458-478: the check of the coherency list. A missing list is a bare Exception
    (line 473), represented by RuntimeError. *)
Definition check_list (noback : bool) (num : nat) (coherent : bool) (cl : option (list string))
  : res (list string) :=
  if coherent then Ok []
  else match cl with
       | Some l => if (length l =? num)%nat then Ok (padded noback l) else Err AssertionError
       | None => Err RuntimeError
       end.
(** The stack is an OptiStack; line 454 stores the flag [no_back_reflection] in it, which is
    the field [o_noback] here. *)
Definition calculate_rat (o : outer) (s : stack) (wl angle : R) (pol : string) (coherent : bool)
  (cl : option (list string)) : res rat :=
  let! cs := check_list (o_noback o) (st_num s) coherent cl in
  let! ns := get_indices o s wl in
  let ds := get_widths o s in
  let s0 := RtoC (sin (radians angle)) in
  let c0 := RtoC (cos (radians angle)) in
  if in_sp pol then
    if coherent then
      let! d := coh_tmm pol ns ds s0 c0 wl in
      let! A := absorp_in_each_layer d in
      Ok (Rat (cd_R d) (1 - cd_R d - cd_T d) (cd_T d) A (OutCoh d A))
    else
      let! d := inc_tmm pol ns ds cs s0 wl in
      let! A := inc_absorp_in_each_layer d in
      Ok (Rat (id_R d) (1 - id_R d - id_T d) (id_T d) A (OutInc d))
  else
    if coherent then
      let! p := coh_tmm "p" ns ds s0 c0 wl in
      let! s := coh_tmm "s" ns ds s0 c0 wl in
      let! Ap := absorp_in_each_layer p in
      let! As := absorp_in_each_layer s in
      let R_ := / 2 * (cd_R p + cd_R s) in
      let T := / 2 * (cd_T p + cd_T s) in
      Ok (Rat R_ (1 - R_ - T) T (halves Ap As) (OutCoh2 s As p Ap))
    else
      let! p := inc_tmm "p" ns ds cs s0 wl in
      let! s := inc_tmm "s" ns ds cs s0 wl in
      let! Ap := inc_absorp_in_each_layer p in
      let! As := inc_absorp_in_each_layer s in
      let R_ := / 2 * (id_R p + id_R s) in
      let T := / 2 * (id_T p + id_T s) in
      Ok (Rat R_ (1 - R_ - T) T (halves Ap As) (OutInc2 s p)).

(** * optics/tmm.py:17-179 [solve_tmm] *)
(** A Layer: width in metres and the methods n and k of its material (wavelength in metres) (for [obj], lines 81 and 88). *)
Record lay : Type := Lay { l_width : R; l_n : R -> R; l_k : R -> R }.
(** What a SolarCell holds: lines 81 and 88 look at the exact type. *)
Inductive obj : Type :=
| OLayer : lay -> obj
| OJunction : list lay -> obj
| OTunnel : list lay -> obj
| OOther : obj.
(** The loop of lines 77-92: all layers, and [n_layers_junction]. *)
Definition collect (objs : list obj) : list lay * list nat :=
  fold_left (fun acc o =>
    match o with
    | OLayer l => (fst acc ++ [l], snd acc ++ [1%nat])
    | OJunction ls | OTunnel ls => (fst acc ++ ls, snd acc ++ [length ls])
    | OOther => acc
    end) objs ([], []).
(** Lines 95-100, with transfer_matrix.py:325-334; widths in nm. *)
Definition full_stack (ls : list lay) : stack :=
  add_layers empty_stack (map (fun l => LSolcore (l_width l * 10 ^ 9) (l_n l) (l_k l)) ls).
(** Lines 115-116: the test on one layer; [np.max] of no wavelengths is a ValueError. *)
Definition thick (wmax w : R) : bool := if Rlt_dec (10 * wmax) w then true else false.
(** With [thick], lines 115-116. *)
Definition np_max (l : list R) : res R :=
  match l with [] => Err ValueError | x :: r => Ok (fold_left Rmax r x) end.
(** Lines 102-124: whether the calculation is coherent, and the coherency list. *)
Definition treatment (BL : bool) (wls ws : list R) (num : nat) (cl : option (list string))
  : res (bool * option (list string)) :=
  let! coherent := match cl with
                   | Some l => if (length l =? num)%nat then Ok false else Err ValueError
                   | None => Ok true
                   end in
  if BL then
    let! m := np_max wls in
    if existsb (thick m) ws then
      let l := match cl with
               | None | Some [] => repeat "c"%string (length ws)
               | Some l => l
               end in
      Ok (false, Some (map (fun wc => if thick m (fst wc) then "i"%string else snd wc) (combine ws l)))
    else Ok (coherent, cl)
  else Ok (coherent, cl).
(** [np.sum] over the first axis, [sum] of line 176. *)
Definition add_up (l : list R) : R := fold_left Rplus l 0.
(** The loop of lines 164-173, from object [j] on; [layer] counts the layers used so far.
    [n_layers_junction[j]] is an IndexError when the list is shorter than the cell. *)
Fixpoint shares (initial : R) (A : list R) (counts : list nat) (layer : nat) (objs : list obj) : res (list R) :=
  match objs with
  | [] => Ok []
  | _ :: r =>
      match counts with
      | [] => Err IndexError
      | n :: c =>
          let! rest := shares initial A c (layer + n) r in
          Ok (initial * add_up (firstn n (skipn layer A)) :: rest)
      end
  end.
(** The attribute [layer_absorption] that the element [i] is left with: one element may stand
    at several places of the cell, and then every assignment overwrites the one before (for [at_wavelength], lines 158-179, lines 126-127 and 141-156). *)
Definition stored (ids : list nat) (xs : list R) (i : nat) : R :=
  fold_left (fun a p => if (fst p =? i)%nat then snd p else a) (combine ids xs) 0.
(** The attributes written to the cell and to its elements, at one wavelength:
    [reflected], [layer_absorption] of each element, [absorbed], [transmitted] (for [at_wavelength], lines 158-179, lines 126-127 and 141-156). *)
Record optics : Type := Optics { op_refl : R; op_layers : list R; op_abs : R; op_trans : R }.
(** The cell is a list of references: equal numbers are the same Python object (for [at_wavelength], lines 158-179, lines 126-127 and 141-156). *)
Definition cell : Type := list (nat * obj).
(** Lines 158-179 after [calculate_rat]. The absorption profile of lines 126-127 and 141-156 is
    [absorption_profile] and [calculate_absorption_tmm] below; it does not enter these. *)
Definition at_wavelength (o : outer) (s : stack) (initial : R) (counts : list nat) (c : cell)
  (angle : R) (pol : string) (coherent : bool) (cl : option (list string)) (wl : R) : res optics :=
  let! r := calculate_rat o s (wl * 10 ^ 9) angle pol coherent cl in
  let! L := shares initial (inner (ra_layers r)) counts 0 (map snd c) in
  let final := map (stored (map fst c) L) (map fst c) in
  Ok (Optics (ra_R r * initial) final (add_up final) (initial - ra_R r * initial - add_up final)).
(** [shading] is the attribute of the cell (line 69); wavelengths in metres. *)
Definition solve_tmm (o : outer) (shading : R) (ce : cell) (wls : list R) (BL : bool)
  (theta : R) (pol : string) (cl : option (list string)) : res (list optics) :=
  let c := collect (map snd ce) in
  let s := full_stack (fst c) in
  let! t := treatment BL wls (map l_width (fst c)) (st_num s) cl in
  mapRR (at_wavelength o s (1 - shading) (snd c) ce theta pol (fst t) (snd t)) wls.

(** * transfer_matrix.py:655-815 [calculate_absorption_profile], coherent, one wavelength *)
(** Lines 760-762 and 780-789: where less than [zero_threshold] is absorbed the amplitudes are
    set to zero, in place; the exit medium (the last row) is left alone. *)
Definition quiet (thr : R) (A : list R) (d : coh_data) : coh_data :=
  let m := (length A - 1)%nat in
  CohData (cd_pol d) (cd_r d) (cd_t d) (cd_R d) (cd_T d) (cd_power_entering d)
    (map (fun i => if (i <? m)%nat && (if Rlt_dec (nth i A 0) thr then true else false) then (RtoC 0, RtoC 0)
                   else nth i (cd_vw d) (RtoC 0, RtoC 0)) (seq 0 (length (cd_vw d))))
    (cd_kz d) (cd_cos d) (cd_n d) (cd_d d) (cd_cos0 d) (cd_lam d).
(** [position_resolved(i, z, data)['absor']], tmm_core_vec.py:390-427. *)
Definition absor_in (d : coh_data) (i : nat) (z : R) : res R :=
  let v := nth i (cd_vw d) (RtoC 0, RtoC 0) in
  absor (cd_pol d) (nth i (cd_n d) (RtoC 0)) (nth i (cd_cos d) (RtoC 0)) (nth i (cd_kz d) (RtoC 0))
        (fst v) (snd v) (hd (RtoC 0) (cd_n d)) (cd_cos0 d) z.
(** Lines 756-764 and 779-794 for one position [z] in nm; the incoherent calculation (lines
    766-776, 796-815) is [IncProfileModel]. *)
Definition absorption_profile (ds : list (option R)) (r : rat) (thr z : R) : res R :=
  let! p := find_in_structure_with_inf ds z in
  match ra_out r with
  | OutCoh d A => absor_in (quiet thr A d) (fst p) (snd p)
  | OutCoh2 s As p' Ap =>
      let! a := absor_in (quiet thr As s) (fst p) (snd p) in
      let! b := absor_in (quiet thr Ap p') (fst p) (snd p) in
      Ok (/ 2 * (a + b))
  | _ => Err NotImplementedError
  end.

(** * optics/tmm.py:182-213 *)
(** Lines 189-190 and the closure of lines 192-208, for one depth [z] in metres and one
    wavelength. Both branches of the [try] index the same arrays, so with fewer than two
    positions the call ends in an IndexError (the test of an empty array of depths, which
    reads nothing, is in [calculate_absorption_tmm]). *)
Definition scaled_z (position : list R) : list R := map (fun p => p * / 10 ^ 9) position.
(** With [scaled_z], lines 189-190, lines 192-208. *)
Definition scaled_abs (initial : R) (absorption : list R) : list R :=
  map (fun a => initial * a / (/ 10 ^ 9)) absorption.
(** With [scaled_z], lines 189-190, lines 192-208. *)
Definition diff_absorption (initial : R) (position absorption : list R) (z : R) : res R :=
  let zs := scaled_z position in
  let ab := scaled_abs initial absorption in
  let n := length zs in
  let i0 := searchsorted zs z in
  let i1 := if (i0 <=? n - 1)%nat then i0 else (n - 1)%nat in
  let i := if (0 <? i1)%nat then i1 else 1%nat in
  if (n <=? i)%nat then Err IndexError
  else
    let z1 := at_ zs (i - 1) in
    let z2 := at_ zs i in
    let f := if Rlt_dec (/ 10 ^ 12) (Rabs (z2 - z1)) then (z - z1) / (z2 - z1) else 0 in
    Ok ((1 - f) * at_ ab (i - 1) + f * at_ ab i).
(** Lines 188-213: the closure is evaluated on its own grid. *)
Definition calculate_absorption_tmm (initial : R) (position absorption : list R) : res R :=
  let! y := mapRR (diff_absorption initial position absorption) (scaled_z position) in
  Ok (np_trapz y (scaled_z position)).
(** Lines 182-185 [absorbed], for an element at [offset] with the given [width]. *)
Definition absorbed (initial : R) (position absorption : list R) (offset width z : R) : res R :=
  let! a := diff_absorption initial position absorption (offset + z) in
  Ok (a * (if Rlt_dec z width then 1 else 0)).

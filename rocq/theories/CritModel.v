(** Model of [solcore/material_system/critical_point_interpolate.py]: optical data of an
    alloy from tables at some compositions.  In the comments I is that file. *)
From Coq Require Import Reals String List Bool Arith.
From Verif Require Import Common NumModel InterpModel NpModel.
Import ListNotations.
Open Scope R_scope.
Open Scope list_scope.

(** A critical point: wavelength and value (the two columns of critical_points.txt, I:41). *)
Notation point := (R * R)%type.
(** The critical points of one composition, a dictionary (for [mix], I:23-24). *)
Definition cps := list (string * point).
(** [d[k]] of a dictionary of points (for [mix], I:23-24). *)
Definition cp_get (d : cps) (k : string) : res point :=
  match find (fun e => String.eqb (fst e) k) d with Some e => Ok (snd e) | None => Err KeyError end.
(** [d[f]] of a dictionary whose keys are compositions, I:20-21, 104, 108. *)
Definition at_fraction {A} (d : list (R * A)) (f : R) : res A :=
  match find (fun e => if Req_EM_T (fst e) f then true else false) d with Some e => Ok (snd e) | None => Err KeyError end.

(** [lower + a * (upper - lower)] of a point, I:23-24. *)
Definition along (a : R) (lo up : point) : point :=
  (fst lo + a * (fst up - fst lo), snd lo + a * (snd up - snd lo)).
(** The comprehension I:23-24. *)
Fixpoint mix (a : R) (up : cps) (lo : cps) : res cps :=
  match lo with
  | [] => Ok []
  | (k, p) :: lo' =>
      let! u := cp_get up k in
      let! r := mix a up lo' in
      Ok ((k, along a p u) :: r)
  end.

(** [interpolate_critical_points], I:12-25.  [fractions_available[target_index - 1]] with
    index -1 is the last one.  With a single composition numpy divides 0 (or another
    number) by 0 and goes on with nan or inf; the model stops with RuntimeError. *)
Definition interpolate_critical_points (cp : list (R * cps)) (target : R) : res (cps * (R * R) * R) :=
  let fr := np_sort (map fst cp) in
  let i := searchsorted fr target in
  match fr with
  | [] => Err IndexError
  | _ =>
    let lower := if Nat.eqb i 0 then at_ fr (length fr - 1) else at_ fr (i - 1) in
    if Nat.leb (length fr) i then Err IndexError
    else
      let upper := at_ fr i in
      if Req_EM_T upper lower then Err RuntimeError
      else
        let a := (target - lower) / (upper - lower) in
        let! lp := at_fraction cp lower in
        let! up := at_fraction cp upper in
        let! r := mix a up lp in
        Ok (r, (lower, upper), a)
  end.

(** [sorted(d.items(), key=lambda item: item[1][0])], I:58: by wavelength, stable. *)
Fixpoint insert_cp (a : string * point) (l : cps) : cps :=
  match l with
  | [] => [a]
  | b :: l' => if Rle_dec (fst (snd a)) (fst (snd b)) then a :: l else b :: insert_cp a l'
  end.
(** With [insert_cp], I:58. *)
Definition sort_cps (d : cps) : cps := fold_right insert_cp [] d.

(** The target points in the order of the keys of the source, I:59-60: ValueError for a key
    the source does not have.  With fewer target keys than source keys the loop I:74-79
    runs out of target bounds. *)
Definition reorder (keys : list string) (to_ : cps) : res (list point) :=
  if forallb (fun e => existsb (String.eqb (fst e)) keys) to_ then
    if Nat.eqb (length to_) (length keys) then mapR (cp_get to_) keys else Err IndexError
  else Err ValueError.

(** The section of [np.split(data, split_at, axis=1)] (I:49-52) that the [i]-th datum falls
    into, for [split_at] non-decreasing: the number of split positions up to [i]. *)
Definition section_of (splits : list nat) (i : nat) : nat := length (filter (fun s => Nat.leb s i) splits).

(** The bounds with the added ends, I:66-70. *)
Definition bounds_x (ps : list point) : list R := 0 :: map fst ps ++ [10 ^ 10].
(** With [bounds_x], I:66-70. *)
Definition bounds_y (ps : list point) : list R := 0 :: map snd ps ++ [0].

(** One coordinate of one datum, I:84-91; [None] is nan or inf (division by zero). *)
Definition stretch (b t : list R) (j : nat) (v : R) : option R :=
  if Req_EM_T (at_ b (j + 1)) (at_ b j) then None
  else Some (at_ t j + (v - at_ b j) / (at_ b (j + 1) - at_ b j) * (at_ t (j + 1) - at_ t j)).

(** [transform], I:55-96: data (wavelengths and values, of one length) from one set of
    critical points to another.  The arrays of the sections are concatenated in order. *)
Definition transform (xs ys : list R) (from to_ : cps) : res (list (option R) * list (option R)) :=
  let ordered := sort_cps from in
  let src := map snd ordered in
  let! dst := reorder (map fst ordered) to_ in
  let splits := map (fun p => searchsorted xs (fst p)) src in
  let ix := seq 0 (length xs) in
  Ok (map (fun i => stretch (bounds_x src) (bounds_x dst) (section_of splits i) (at_ xs i)) ix,
      map (fun i => stretch (bounds_y src) (bounds_y dst) (section_of splits i) (at_ ys i)) ix).

(** The numbers of an array without nan (for [interp_opt], I:112-113). *)
Fixpoint numbers (l : list (option R)) : option (list R) :=
  match l with
  | [] => Some []
  | Some x :: l' => match numbers l' with Some r => Some (x :: r) | None => None end
  | None :: _ => None
  end.

(** [np.interp] on transformed data, I:112-113.  With a nan among the data numpy's result is
    nan at least next to it; the model gives [None] everywhere. *)
Definition interp_opt (xy : list (option R) * list (option R)) (v : R) : option R :=
  match numbers (fst xy), numbers (snd xy) with
  | Some x, Some y => Some (np_interp x y v)
  | _, _ => None
  end.

(** [critical_point_interpolate], I:99-115. *)
Definition critical_point_interpolate (data : list (R * (list R * list R))) (cp : list (R * cps)) (target : R) (grid : list R)
  : res (list (option R) * cps) :=
  let! r := interpolate_critical_points cp target in
  let '(pts, (lower, upper), a) := r in
  let! dl := at_fraction data lower in
  let! cl := at_fraction cp lower in
  let! tl := transform (fst dl) (snd dl) cl pts in
  let! du := at_fraction data upper in
  let! cu := at_fraction cp upper in
  let! tu := transform (fst du) (snd du) cu pts in
  Ok (map (fun v => match interp_opt tu v, interp_opt tl v with
                    | Some h, Some l => Some (h * a + l * (1 - a))
                    | _, _ => None
                    end) grid, pts).

(** Model of [solcore/interpolate.py]. *)
From Coq Require Import Reals String List Arith Bool.
From Verif Require Import Common.
Import ListNotations.
Open Scope R_scope.
Open Scope list_scope.

(** An array element; indices used below are in range. *)
Notation at_ l i := (nth i l 0%R).

(** [np.searchsorted(l, v)] (side left) on an increasing array: the number of
    leading elements below [v]; interpolate.py:132, 165. *)
Fixpoint searchsorted (l : list R) (v : R) : nat :=
  match l with
  | [] => 0
  | x :: l' => if Rlt_dec x v then S (searchsorted l' v) else 0
  end.
(** [.clip(lo, hi)] of an index, numpy's minimum(maximum(i, lo), hi); interpolate.py:137, 168. *)
Definition clip (i lo hi : nat) : nat := Nat.min (Nat.max i lo) hi.

(** Interpolation kinds with a model; the splines are not modelled (for [kind_of], interpolate.py:66-74). *)
Inductive kind := Linear | Nearest.
(** [kind] strings accepted without scipy, interpolate.py:66-74. *)
Definition kind_of (s : string) : res kind :=
  if String.eqb s "linear" then Ok Linear
  else if String.eqb s "nearest" then Ok Nearest
  else Err NotImplementedError.

(** The object: 1-D [x] and [y] (arrays of more dimensions are not modelled). *)
Record table1d := { t_x : list R; t_y : list R; t_kind : kind; t_bounds_error : bool; t_fill : option R }.

(** [interp1d.__init__], interpolate.py:15-124.  [fill_value] None is NaN. *)
Definition interp1d (x y : list R) (k : kind) (bounds_error : bool) (fill : option R) : res table1d :=
  if negb (Nat.eqb (length x) (length y)) then Err ValueError
  else if Nat.ltb (length x) 2 then Err ValueError
  else Ok {| t_x := x; t_y := y; t_kind := k; t_bounds_error := bounds_error; t_fill := fill |}.

(** [_call_linear] at one value, interpolate.py:126-156. *)
Definition call_linear (x y : list R) (v : R) : R :=
  let hi := clip (searchsorted x v) 1 (length x - 1) in
  let lo := (hi - 1)%nat in
  let slope := (at_ y hi - at_ y lo) / (at_ x hi - at_ x lo) in
  slope * (v - at_ x lo) + at_ y lo.

(** [x_bds = (x[1:] + x[:-1]) / 2], interpolate.py:103. *)
Fixpoint midpoints (x : list R) : list R :=
  match x with
  | a :: ((b :: _) as x') => (b + a) / 2 :: midpoints x'
  | _ => []
  end.
(** [_call_nearest] at one value, interpolate.py:158-173. *)
Definition call_nearest (x y : list R) (v : R) : R :=
  at_ y (clip (searchsorted (midpoints x) v) 0 (length x - 1)).

(** [_check_bounds], interpolate.py:223-257. *)
Definition below (t : table1d) (v : R) : bool := if Rlt_dec v (at_ (t_x t) 0) then true else false.
(** With [below], interpolate.py:223-257. *)
Definition above (t : table1d) (v : R) : bool :=
  if Rlt_dec (at_ (t_x t) (length (t_x t) - 1)) v then true else false.

(** [__call__] on an array of values, interpolate.py:180-221; None is NaN. *)
Definition call (t : table1d) (vs : list R) : res (list (option R)) :=
  if t_bounds_error t && existsb (below t) vs then Err ValueError
  else if t_bounds_error t && existsb (above t) vs then Err ValueError
  else Ok (map (fun v =>
         if below t v || above t v then t_fill t
         else Some (match t_kind t with
                    | Linear => call_linear (t_x t) (t_y t) v
                    | Nearest => call_nearest (t_x t) (t_y t) v
                    end)) vs).

(** * BilinearInterpolation *)

(** [__init__], interpolate.py:264-284: the asserts. *)
Definition bilinear_ok (x y : list R) (z : list (list R)) : bool :=
  Nat.leb 3 (length x) && Nat.leb 3 (length y) && Nat.eqb (length x) (length z)
  && forallb (fun row => Nat.eqb (length y) (length row)) z.

(** The search loop: first [i] with x[i] <= v < x[i+1]; interpolate.py:290-301, 307-318. *)
Fixpoint find_cell (i : nat) (x : list R) (v : R) : option nat :=
  match x with
  | a :: ((b :: _) as x') =>
      if Rle_dec a v then if Rlt_dec v b then Some i else find_cell (S i) x' v
      else find_cell (S i) x' v
  | _ => None
  end.

(** [__call__] on numbers, interpolate.py:286-348; outside every cell it returns 0
    ([fill_value] is never used). *)
Definition bilinear (x y : list R) (z : list (list R)) (xv yv : R) : R :=
  match find_cell 0 x xv with
  | None => 0
  | Some i =>
      match find_cell 0 y yv with
      | None => 0
      | Some j =>
          let x0 := at_ x i in let x1 := at_ x (S i) in
          let y0 := at_ y j in let y1 := at_ y (S j) in
          let D := (x1 - x0) * (y1 - y0) in
          let zz a b := at_ (nth a z []) b in
          zz i j * (x1 - xv) * (y1 - yv) / D
          + zz (S i) j * (xv - x0) * (y1 - yv) / D
          + zz i (S j) * (x1 - xv) * (yv - y0) / D
          + zz (S i) (S j) * (xv - x0) * (yv - y0) / D
      end
  end.

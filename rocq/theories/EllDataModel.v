(** Model of [EllipsometryData], solcore/data_analysis_tools/ellipsometry_analysis.py:10-106. *)
From Coq Require Import Reals Ascii String List Bool Arith.
From Verif Require Import Common.
From Coq Require Import List.
Import ListNotations.
Open Scope R_scope.
Open Scope list_scope.

(** Dictionaries with numbers as keys, in the order of insertion. *)
Section Dict.
Context {V : Type}.
(** For [seen], ellipsometry_analysis.py, lines 56-59. *)
Fixpoint aget (k : R) (l : list (R * V)) : option V :=
  match l with
  | [] => None
  | (a, v) :: r => if Req_EM_T a k then Some v else aget k r
  end.
(** For [load_line], ellipsometry_analysis.py, lines 42-73. *)
Fixpoint aput (k : R) (v : V) (l : list (R * V)) : list (R * V) :=
  match l with
  | [] => [(k, v)]
  | (a, w) :: r => if Req_EM_T a k then (a, v) :: r else (a, w) :: aput k v r
  end.
End Dict.

(** The attributes of the object (20-26), without the first two lines of the file.  The data of an angle are
    kept by rows, [wavelength; psi; error of psi; Delta; error of Delta], and not transposed as in line 76. *)
Record ell := mkEll { units : string; angles : list R; data : list (R * list (list R)); dpol : list (R * list (list R)) }.

(** data[0][0] in '0123456789', line 47 *)
Definition starts_digit (t : string) : bool :=
  match t with
  | EmptyString => false
  | String c _ => existsb (Ascii.eqb c) (list_ascii_of_string "0123456789")
  end.

Section Load.
(** Python's [float] of a text; [None] is a ValueError. *)
Context (float : string -> option R).
(** For [data_row], ellipsometry_analysis.py, lines 62-67. *)
Definition tok (toks : list string) (i : nat) : res R :=
  match nth_error toks i with
  | None => Err IndexError
  | Some s => match float s with Some v => Ok v | None => Err ValueError end
  end.
(** Lines 56-59 *)
Definition seen (key : R) (e : ell) : ell :=
  match aget key (data e) with
  | Some _ => e
  | None => mkEll (units e) (angles e ++ [key]) (data e ++ [(key, [])]) (dpol e ++ [(key, [])])
  end.
(** With [seen], ellipsometry_analysis.py, lines 56-59. *)
Definition add_row (key : R) (row : list R) (l : list (R * list (list R))) : list (R * list (list R)) :=
  match aget key l with Some rows => aput key (rows ++ [row]) l | None => l end.
(** Lines 62-67 *)
Definition data_row (s : nat) (toks : list string) : res (list R) :=
  let! wl := tok toks (0 + s) in
  let! psi := tok toks (2 + s) in
  let! epsi := tok toks (4 + s) in
  let! delta := tok toks (3 + s) in
  let! edelta := tok toks (5 + s) in
  Ok [wl; psi; epsi; delta; edelta].
(** Lines 70-73 *)
Definition dpol_row (toks : list string) : res (list R) :=
  let! wl := tok toks 1 in
  let! d := tok toks 3 in
  let! ed := tok toks 4 in
  Ok [wl; d; ed].
(** With [dpol_row], ellipsometry_analysis.py, lines 70-73. *)
Definition add_data (e : ell) (key : R) (row : list R) : ell :=
  mkEll (units e) (angles e) (add_row key row (data e)) (dpol e).
(** With [dpol_row], ellipsometry_analysis.py, lines 70-73. *)
Definition add_dpol (e : ell) (key : R) (row : list R) : ell :=
  mkEll (units e) (angles e) (data e) (add_row key row (dpol e)).
(** Lines 42-73: one line, as the words of l.strip().split() *)
Definition load_line (e : ell) (toks : list string) : res ell :=
  match toks with
  | [] => Err IndexError
  | t :: _ =>
      if String.eqb t "nm" || String.eqb t "1/cm" then Ok (mkEll t (angles e) (data e) (dpol e))
      else if starts_digit t then
        let! key := tok toks 1 in
        let! row := data_row 0 toks in
        Ok (add_data (seen key e) key row)
      else if String.eqb t "E" then
        let! key := tok toks 2 in
        let! row := data_row 1 toks in
        Ok (add_data (seen key e) key row)
      else if String.eqb t "dpolE" then
        let! key := tok toks 2 in
        let! row := dpol_row toks in
        Ok (add_dpol (seen key e) key row)
      else Ok e
  end.
(** With [load_line], ellipsometry_analysis.py, lines 42-73. *)
Fixpoint load_lines (e : ell) (ls : list (list string)) : res ell :=
  match ls with
  | [] => Ok e
  | l :: r => let! e1 := load_line e l in load_lines e1 r
  end.
(** Lines 78-81; the units are nothing, nm or 1/cm here *)
Definition convert (u : string) (row : list R) : list R :=
  match row with
  | wl :: r => (if String.eqb u "1/cm" then 10000 / wl else wl / 1000) :: r
  | [] => []
  end.
(** Lines 75-81: the first row of an array of no points is an IndexError. *)
Fixpoint convert_all (u : string) (l : list (R * list (list R))) : res (list (R * list (list R))) :=
  match l with
  | [] => Ok []
  | (k, rows) :: r =>
      match rows with
      | [] => Err IndexError
      | _ => let! r' := convert_all u r in Ok ((k, map (convert u) rows) :: r')
      end
  end.
(** _load_data, lines 29-83, from the words of the lines of the file *)
Definition load (file : list (list string)) : res ell :=
  match file with
  | _ :: _ :: ls =>
      let! e := load_lines (mkEll "" [] [] []) ls in
      let! d := convert_all (units e) (data e) in
      Ok (mkEll "um" (angles e) d (dpol e))
  | _ => Err IndexError
  end.
End Load.

(** numpy.argsort and indexing with it (100, 104).  Simplified: stable; numpy's default is not. *)
Fixpoint insert_by {A} (f : A -> R) (a : A) (l : list A) : list A :=
  match l with
  | [] => [a]
  | b :: r => if Rle_dec (f a) (f b) then a :: l else b :: insert_by f a r
  end.
(** With [insert_by], ellipsometry_analysis.py, lines 100, 104. *)
Definition sort_by {A} (f : A -> R) (l : list A) : list A := fold_right (insert_by f) [] l.
(** With [insert_by], ellipsometry_analysis.py, lines 100, 104. *)
Definition wl_of (row : list R) : R := nth 0 row 0.
(** With [insert_by], ellipsometry_analysis.py, lines 100, 104. *)
Definition argsort (l : list R) : list nat := map snd (sort_by fst (combine l (seq 0 (length l)))).
(** With [insert_by], ellipsometry_analysis.py, lines 100, 104. *)
Definition take_cols (order : list nat) (row : list R) : list R := map (fun i => nth i row 0) order.

(** Lines 102-106: two lists of rows of dpol; an empty one cannot be stacked with another one, and the
    exception is ignored. *)
Definition merge_dpol (new old : list (list R)) : list (list R) :=
  match new, old with
  | [], _ | _, [] => old
  | first :: _, _ => map (take_cols (argsort first)) (new ++ old)
  end.
(** With [merge_dpol], ellipsometry_analysis.py, lines 102-106. *)
Definition rows_of (k : R) (l : list (R * list (list R))) : list (list R) :=
  match aget k l with Some r => r | None => [] end.
(** Lines 94-106 for one angle of the new data *)
Definition append_key (new : ell) (e : ell) (kr : R * list (list R)) : ell :=
  let (key, rows) := kr in
  match aget key (data e) with
  | None => mkEll (units e) (angles e) (aput key rows (data e)) (aput key (rows_of key (dpol new)) (dpol e))
  | Some old => mkEll (units e) (angles e) (aput key (sort_by wl_of (rows ++ old)) (data e))
                      (aput key (merge_dpol (rows_of key (dpol new)) (rows_of key (dpol e))) (dpol e))
  end.
(** append_data, lines 85-106, with the new data loaded *)
Definition append_data (e new : ell) : ell := fold_left (append_key new) (data new) e.

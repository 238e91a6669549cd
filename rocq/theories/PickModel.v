(** Model of [CPPicker], solcore/material_system/critical_point_picker.py:17-200, as a machine
    driven by the events of the window.  Drawing is left out. *)
From Coq Require Import Reals String List Bool Arith.
From Verif Require Import Common InterpModel NpModel.
From Coq Require Import List.
Import ListNotations.
Open Scope R_scope.
Open Scope list_scope.

(** * Files, lines 39-73 *)
(** The text order of Python, line 32. *)
Definition text_le (a b : string) : bool :=
  match String.compare a b with Gt => false | _ => true end.
(** One step of that sorting, line 32. *)
Fixpoint insert_text {A} (x : string * A) (l : list (string * A)) : list (string * A) :=
  match l with
  | [] => [x]
  | y :: r => if text_le (fst x) (fst y) then x :: l else y :: insert_text x r
  end.
(** The keys of the dictionary with their entries, sorted, line 32. *)
Definition fraction_order {A} (d : list (string * A)) : list (string * A) := fold_right insert_text [] d.
(** results[fraction] = file_info, line 72. *)
Fixpoint store {A} (d : list (string * A)) (k : string) (v : A) : list (string * A) :=
  match d with
  | [] => [(k, v)]
  | (a, w) :: r => if String.eqb a k then (a, v) :: r else (a, w) :: store r k v
  end.
Section Files.
(** [guess_fraction], lines 39-41: the first number in a name, [None] without one. *)
Context (guess : string -> option string).
(** Lines 50-73, for the files in the order of their names; the terminal is not interactive
    (line 13).  Simplified: a file without a number is a TypeError, which Python raises when
    the keys are sorted (32) or, for a single file, when they are saved (191). *)
Fixpoint gather (names : list string) (d : list (string * string)) : res (list (string * string)) :=
  match names with
  | [] => Ok d
  | f :: r => match guess f with Some x => gather r (store d x f) | None => Err TypeError end
  end.
(** Lines 43-49, 73 and 32: [global] is the global variable [directory] of the module, which
    exists only when the module is run as a program (204). *)
Definition gather_files (global : option string) (names : list string) : res (list (string * string)) :=
  match names, global with
  | _ :: _, None => Err NameError
  | _, _ => let! d := gather names [] in Ok (fraction_order d)
  end.
End Files.

(** * Picking, lines 137-175 *)
Notation point := (R * R)%type.
(** critical_points without its last list, that last list, current_curve and the switches,
    lines 28-37. *)
Record picker := Picker { done_ : list (list point); open_ : list point; curve : nat;
  finished : bool; log_ : bool; snap : bool }.
(** Lines 28-37 *)
Definition start : picker := Picker [] [] 0 false true true.
(** A click on the curve in red with the position of the mouse, or a key.  Only the curve
    [current_curve] can be clicked (79-92). *)
Inductive event := Pick (x y : R) | Backspace | Enter | Escape | KeyL | KeyN | OtherKey.
Section Machine.
(** The curves in the order of the fractions, in nanometres (92). *)
Context (curves : list (list R * list R)).
(** Line 33 *)
Definition n_curves : nat := length curves.
(** Line 144 *)
Definition picked (p : picker) (x y : R) : R :=
  if snap p then np_interp (fst (nth (curve p) curves ([], []))) (snd (nth (curve p) curves ([], []))) x else y.
(** onpick, lines 137-152 *)
Definition on_pick (p : picker) (x y : R) : picker :=
  let o := if (Nat.ltb (curve p) n_curves && Nat.ltb (length (open_ p)) n_curves)%bool
           then open_ p ++ [(x, picked p x y)] else open_ p in
  Picker (done_ p) o (if Nat.ltb (curve p) (n_curves - 1) then S (curve p) else curve p) (finished p) (log_ p) (snap p).
(** onkey, lines 156-173 *)
Definition on_event (p : picker) (e : event) : picker :=
  match e with
  | Pick x y => on_pick p x y
  | Backspace =>
      match open_ p with
      | [] => p
      | _ => let o := removelast (open_ p) in Picker (done_ p) o (length o) (finished p) (log_ p) (snap p)
      end
  | Enter =>
      if Nat.eqb (length (open_ p)) n_curves
      then Picker (done_ p ++ [open_ p]) [] 0 (finished p) (log_ p) (snap p) else p
  | Escape => Picker (done_ p) (open_ p) (curve p) true (log_ p) (snap p)
  | KeyL => Picker (done_ p) (open_ p) (curve p) (finished p) (negb (log_ p)) (snap p)
  | KeyN => Picker (done_ p) (open_ p) (curve p) (finished p) (log_ p) (negb (snap p))
  | OtherKey => p
  end.
(** The events of the window one after the other, lines 128-135. *)
Definition play (es : list event) (p : picker) : picker := fold_left on_event es p.
End Machine.

(** * Saving, lines 177-200 *)
(** A section of the file: composition, name of the file and the numbered points, in metres (for [set_points], critical_point_picker.py, lines 195-197). *)
Record section := Section_ { s_name : string; s_file : string; s_points : list (nat * point) }.
(** Lines 195-197 for one critical point *)
Fixpoint set_points (number : nat) (subset : list point) (ss : list section) : res (list section) :=
  match ss with
  | [] => Ok []
  | s :: r =>
      match subset with
      | [] => Err IndexError
      | c :: cs =>
          let! r' := set_points number cs r in
          Ok (Section_ (s_name s) (s_file s) (s_points s ++ [(number, (fst c * / 10 ^ 9, snd c))]) :: r')
      end
  end.
(** Lines 194-197 *)
Fixpoint set_all (number : nat) (subsets : list (list point)) (ss : list section) : res (list section) :=
  match subsets with
  | [] => Ok ss
  | c :: r => let! s1 := set_points number c ss in set_all (S number) r s1
  end.
(** save, lines 188-197: [order] are the compositions with their files. *)
Definition save (order : list (string * string)) (p : picker) : res (list section) :=
  set_all 1 (done_ p) (map (fun f => Section_ (fst f) (snd f) []) order).

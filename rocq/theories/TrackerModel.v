(** Model of [solcore/science_tracker.py]. *)
From Coq Require Import String List Bool Arith.
From Verif Require Import Common.
Import ListNotations.
Open Scope string_scope.
Open Scope list_scope.

(** Module globals, science_tracker.py:3-7. *)
Record tracker := mkTracker {
  bibliography : list string;
  bibliography_id : list string;
  science_tracking : list (string * string * nat);
  track_references : bool;
  track_each : bool
}.
(** Initial values, science_tracker.py:3-7. *)
Definition tracker0 : tracker := mkTracker [] [] [] false false.

(** What [inspect] tells about the caller, science_tracker.py:28-41: the name of
    the calling function, the identifier text ("name [id]", line 40), the call
    record text (line 41), and whether the name is found in the globals or
    locals of the frame (line 39 raises KeyError otherwise, e.g. for a method). *)
Record caller := mkCaller { ident : string; call_record : string; visible : bool }.

(** [list.index], used at science_tracker.py:49. *)
Fixpoint index_of (x : string) (l : list string) : nat :=
  match l with
  | [] => 0
  | y :: l' => if String.eqb y x then 0 else S (index_of x l')
  end.

(** [science_reference], science_tracker.py:14-49. *)
Definition science_reference (t : tracker) (c : caller) (purpose reference : string)
  : tracker * option exn :=
  if negb (track_references t) then (t, None)
  else if negb (visible c) then (t, Some KeyError)
  else
    let add_anyway := negb (existsb (String.eqb (ident c)) (bibliography_id t)) in
    let ids := if add_anyway then bibliography_id t ++ [ident c] else bibliography_id t in
    let bib := if add_anyway then bibliography t ++ [reference] else bibliography t in
    let tr := if track_each t || add_anyway
              then science_tracking t ++ [(call_record c, purpose, index_of (ident c) ids + 1)]
              else science_tracking t in
    (mkTracker bib ids tr (track_references t) (track_each t), None).

(** [track_science], science_tracker.py:67-72. *)
Definition track_science (t : tracker) (each : bool) : tracker :=
  mkTracker (bibliography t) (bibliography_id t) (science_tracking t) true each.

(** Histories of calls (by [caller], science_tracker.py:28-41, line 40, line 41, line 39). *)
Inductive top :=
| TCall : caller -> string -> string -> top
| TTrack : bool -> top.
(** By [science_reference], science_tracker.py:14-49, [track_science], science_tracker.py:67-72. *)
Definition t_step (t : tracker) (x : top) : tracker :=
  match x with
  | TCall c p r => fst (science_reference t c p r)
  | TTrack b => track_science t b
  end.
(** A sequence of calls, science_tracker.py:14-72. *)
Definition t_run (t : tracker) (h : list top) : tracker := fold_left t_step h t.

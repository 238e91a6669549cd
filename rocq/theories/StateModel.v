(** Model of [solcore/state.py], class [State] (lines 4-23), and of
    [merge_dicts] in [solcore/solar_cell_solver.py] (38-46). *)
From Coq Require Import String List Bool Arith.
From Verif Require Import Common.
Import ListNotations.
Open Scope string_scope.
Open Scope list_scope.

Section State.
Context {A : Type}.

(** An [OrderedDict]: (key, value) pairs in insertion order; state.py:4. *)
Definition od := list (string * A).

(** [d[k]] for a present key; state.py:15. *)
Fixpoint od_get (d : od) (k : string) : option A :=
  match d with
  | [] => None
  | (k', v) :: d' => if String.eqb k' k then Some v else od_get d' k
  end.
(** [d[k] = v]: replaces in place or appends; state.py:23. *)
Fixpoint od_set (d : od) (k : string) (v : A) : od :=
  match d with
  | [] => [(k, v)]
  | (k', v') :: d' => if String.eqb k' k then (k', v) :: d' else (k', v') :: od_set d' k v
  end.
(** [del d[k]]; inherited from OrderedDict, state.py:4. *)
Fixpoint od_del (d : od) (k : string) : od :=
  match d with
  | [] => []
  | (k', v') :: d' => if String.eqb k' k then d' else (k', v') :: od_del d' k
  end.

(** A State object: its items, and the instance attributes that [__setattr__]
    stores outside of the dictionary (state.py:20-21). *)
Record state := mkState { items : od; hidden : od }.
(** With [state], state.py:20-21. *)
Definition empty_state : state := mkState [] [].

(** state.py:10: names that [__getattr__] never looks up as keys. *)
Definition root_names : list string := ["_OrderedDict__root"; "_OrderedDict__map"].
(** state.py:20: names that [__setattr__] stores as plain attributes. *)
Definition hidden_names : list string :=
  ["_OrderedDict__root"; "_OrderedDict__map"; "_OrderedDict__hardroot"].
(** With [hidden_names], state.py:20. *)
Definition mem (k : string) (l : list string) : bool := existsb (String.eqb k) l.

(** Result of reading an attribute: a stored value or a method of the class (for [getattr], state.py:9-17). *)
Inductive attr := Val : A -> attr | Method : string -> attr.

Section WithMethods.
(** Names found by normal attribute lookup on the class (keys, items, update,
    get, ...): Python finds these before calling [__getattr__]. *)
Context (methods : list string).

(** [s.name], state.py:9-17. *)
Definition getattr (s : state) (name : string) : res attr :=
  if mem name methods then Ok (Method name)
  else match od_get (hidden s) name with
  | Some v => Ok (Val v)
  | None =>
      if mem name root_names then Err AttributeError
      else match od_get (items s) name with
      | Some v => Ok (Val v)
      | None => Err KeyError
      end
  end.
(** [s[name]], inherited (by [od_get], state.py:15). *)
Definition getitem (s : state) (name : string) : res A :=
  match od_get (items s) name with Some v => Ok v | None => Err KeyError end.
(** [s.name = v], state.py:19-23. *)
Definition setattr (s : state) (name : string) (v : A) : state :=
  if mem name hidden_names then mkState (items s) (od_set (hidden s) name v)
  else mkState (od_set (items s) name v) (hidden s).
(** [s[name] = v], inherited (by [od_set], state.py:23). *)
Definition setitem (s : state) (name : string) (v : A) : state :=
  mkState (od_set (items s) name v) (hidden s).
(** [del s[name]], inherited; KeyError when absent (by [od_get], state.py:15, [od_del], state.py:4). *)
Definition delitem (s : state) (name : string) : state * option exn :=
  match od_get (items s) name with
  | Some _ => (mkState (od_del (items s) name) (hidden s), None)
  | None => (s, Some KeyError)
  end.
(** [hasattr(s, name)]: only AttributeError means "no", other exceptions go to
    the caller; state.py:17 raises KeyError. *)
Definition hasattr (s : state) (name : string) : res bool :=
  match getattr s name with
  | Ok _ => Ok true
  | Err AttributeError => Ok false
  | Err e => Err e
  end.
End WithMethods.

(** The operations on a State object (lines 4-23). *)
Inductive sop := SetAttr : string -> A -> sop | SetItem : string -> A -> sop | DelItem : string -> sop.
(** By [setattr], state.py:19-23. *)
Definition sstep (s : state) (x : sop) : state :=
  match x with
  | SetAttr n v => setattr s n v
  | SetItem n v => setitem s n v
  | DelItem n => fst (delitem s n)
  end.
(** Lines 4-23. *)
Definition srun (h : list sop) : state := fold_left sstep h empty_state.

(** [result.update(dictionary)], solar_cell_solver.py:45. *)
Definition od_update (d e : od) : od := fold_left (fun d p => od_set d (fst p) (snd p)) e d.

(** [merge_dicts], solar_cell_solver.py:38-46, on a heap of dictionaries: the
    arguments are references, the result is a new object at the end of the heap. *)
Definition heap := list od.
(** With [heap], solar_cell_solver.py:38-46. *)
Definition merge_dicts (h : heap) (args : list nat) : heap * nat :=
  (h ++ [fold_left (fun r i => od_update r (nth i h [])) args []], length h).
End State.
Arguments od : clear implicits.
Arguments state : clear implicits.
Arguments sop : clear implicits.
Arguments attr : clear implicits.
Arguments heap : clear implicits.

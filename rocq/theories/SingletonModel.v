(** Model of solcore/singleton.py:5-72: the metaclass [Singleton], [breakout],
    [Redirect_to_singleton_method] and [breakoutFunctions]. *)
From Coq Require Import String List Arith Bool.
From Verif Require Import Common.
From Coq Require Import List.
Import ListNotations.
Open Scope list_scope.

(** Classes and functions have numbers. [A] are arguments, [O] instances, [V] results of methods
    and [W] is the rest of the world. [construct] is [type.__call__] of a class, [method] the body
    of a function on an instance. (Simplification: neither of them uses a singleton itself.) *)
Section Singleton.
Context {A O V W : Type}.
Context (construct : nat -> A -> W -> res O * W) (method : nat -> O -> A -> W -> res V * W) (no_args : A).

(** singleton.py:10 [_dufftown], and the world. *)
Record sstate : Type := St { s_inst : list (nat * O); s_world : W }.
(** singleton.py:13, 16: the lookup by class. *)
Fixpoint instance (l : list (nat * O)) (cls : nat) : option O :=
  match l with
  | [] => None
  | (k, i) :: r => if Nat.eqb k cls then Some i else instance r cls
  end.
(** singleton.py:12-16 [__call__] *)
Definition call (cls : nat) (a : A) (s : sstate) : res O * sstate :=
  match instance (s_inst s) cls with
  | Some i => (Ok i, s)
  | None =>
      match construct cls a (s_world s) with
      | (Ok i, w) => (Ok i, St (s_inst s ++ [(cls, i)]) w)
      | (Err e, w) => (Err e, St (s_inst s) w)
      end
  end.
(** singleton.py:30-36 [Redirect_to_singleton_method]: class and function; the call. *)
Record redirect : Type := Redirect { r_class : nat; r_function : nat }.
(** With [redirect], singleton.py:30-36. *)
Definition redirected (r : redirect) (a : A) (s : sstate) : res V * sstate :=
  match call (r_class r) no_args s with
  | (Ok i, s') =>
      let (v, w) := method (r_function r) i a (s_world s') in (v, St (s_inst s') w)
  | (Err e, s') => (Err e, s')
  end.

(** singleton.py:18-22 and 59-61: which functions have the attribute [break_me_out]. *)
Definition tags : Type := nat -> bool.
(** singleton.py:18-22 [breakout] *)
Definition breakout (f : nat) (t : tags) : tags := fun g => if Nat.eqb g f then true else t g.
(** singleton.py:61 [del func.break_me_out] *)
Definition untag (f : nat) (t : tags) : tags := fun g => if Nat.eqb g f then false else t g.
(** singleton.py:63-64 [setattr(namespace, name, ...)]. *)
Fixpoint set_name (ns : list (string * redirect)) (k : string) (r : redirect) : list (string * redirect) :=
  match ns with
  | [] => [(k, r)]
  | (k', r') :: l => if String.eqb k' k then (k, r) :: l else (k', r') :: set_name l k r
  end.
(** singleton.py:46-72 [breakoutFunctions.__call__]: [dict] is [cls.__dict__], by names. *)
Fixpoint breakout_functions (cls : nat) (dict : list (string * nat)) (ns : list (string * redirect)) (t : tags)
    : list (string * redirect) * tags :=
  match dict with
  | [] => (ns, t)
  | (name, f) :: r =>
      if t f then breakout_functions cls r (set_name ns name (Redirect cls f)) (untag f t)
      else breakout_functions cls r ns t
  end.

(** A program that uses singletons: calls of classes and of redirected functions (by [redirect], singleton.py:30-36). *)
Inductive use : Type := Make : nat -> A -> use | Use : redirect -> A -> use.
(** Solcore/singleton.py:5-72. *)
Inductive outcome : Type := Made : res O -> outcome | Used : res V -> outcome.
(** By [call], singleton.py:12-16. *)
Definition step (u : use) (s : sstate) : outcome * sstate :=
  match u with
  | Make cls a => let (x, s') := call cls a s in (Made x, s')
  | Use r a => let (x, s') := redirected r a s in (Used x, s')
  end.
(** Solcore/singleton.py:5-72. *)
Fixpoint run (l : list use) (s : sstate) : list outcome * sstate :=
  match l with
  | [] => ([], s)
  | u :: r => let (x, s') := step u s in let (xs, s'') := run r s' in (x :: xs, s'')
  end.
End Singleton.

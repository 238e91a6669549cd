(** Common vocabulary of the model: Python exceptions as values. *)
From Coq Require Import String List.
Import ListNotations.

(** The Python exception classes that the modelled code can raise.
    They are values here: no modelled function is silently totalised. *)
Inductive exn : Type :=
| KeyError | ValueError | AssertionError | IndexError | TypeError
| AttributeError | NameError | ZeroDivisionError | NoSectionError
| NoOptionError | NotImplementedError
| UnboundLocalError | RuntimeError | RecursionError | SystemExit
| MaterialParameterError | ParsingError | SOPRAError.

Definition exn_eq_dec (a b : exn) : {a = b} + {a <> b}.
Proof. decide equality. Defined.

(** Result of a call: a value or a raised exception. *)
Inductive res (A : Type) : Type :=
| Ok : A -> res A
| Err : exn -> res A.
Arguments Ok {A} _.
Arguments Err {A} _.

Definition bindR {A B} (r : res A) (f : A -> res B) : res B :=
  match r with Ok a => f a | Err e => Err e end.

Notation "'let!' x ':=' e 'in' k" := (bindR e (fun x => k))
  (at level 200, x name, e at level 100, k at level 200).

Definition is_ok {A} (r : res A) : bool :=
  match r with Ok _ => true | Err _ => false end.

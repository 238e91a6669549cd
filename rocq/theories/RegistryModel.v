(** Model of [solcore/registries.py]: [generic_register] (38-83) and the five
    registries built on it (86-289). *)
From stdpp Require Import gmap strings list.
From Verif Require Import Common.

(** The five registries: ACTIONS_REGISTRY (registries.py:87),
    OPTICS_METHOD_REGISTRY (125), SHORT_CIRCUIT_SOLVER_REGISTRY (166),
    EQUILIBRIUM_SOLVER_REGISTRY (208), IV_SOLVER_REGISTRY (250). *)
Inductive regid := ACTIONS | OPTICS | SHORT_CIRCUIT | EQUILIBRIUM | IV.
Global Instance regid_eq_dec : EqDecision regid.
Proof. solve_decision. Defined.

(** A decorator returned by [generic_register] and not yet applied: the closure
    [wrap] remembers registry, name and whether a reason to exclude was given
    (registries.py:78-83). *)
Record pending := mkPending { p_reg : regid; p_name : string; p_excluded : bool }.

(** All registries (name -> function, functions are numbers) and the decorators
    handed out so far (for [store], registries.py:80). *)
Record regs := mkRegs {
  reg : regid -> gmap string nat;
  tokens : list pending
}.

(** Update of one registry: [registry[name] = func], registries.py:80. *)
Definition store (r : regs) (i : regid) (name : string) (f : nat) : regs :=
  mkRegs (fun j => if decide (j = i) then <[name := f]> (reg r j) else reg r j) (tokens r).

(** Calling [register_xxx(name, overwrite, reason_to_exclude)]: registries.py:38-77.
    The name check happens here. *)
Definition obtain (r : regs) (i : regid) (name : string) (overwrite excluded : bool)
  : regs * option exn :=
  match reg r i !! name with
  | Some _ =>
      if overwrite then (mkRegs (reg r) (tokens r ++ [mkPending i name excluded]), None)
      else (r, Some ValueError)
  | None => (mkRegs (reg r) (tokens r ++ [mkPending i name excluded]), None)
  end.

(** Applying the [n]-th decorator handed out to function [f]: [wrap],
    registries.py:78-81.  The store happens here.  A decorator may be applied
    several times.  [None] for a decorator that does not exist. *)
Definition apply_token (r : regs) (n : nat) (f : nat) : regs :=
  match tokens r !! n with
  | None => r
  | Some t => if p_excluded t then r else store r (p_reg t) (p_name t) f
  end.

(** The two observable steps of registering (by [regid], registries.py:87). *)
Inductive rop :=
| Obtain : regid -> string -> bool -> bool -> rop
| Apply : nat -> nat -> rop.

(** By [obtain], registries.py:38-77, [apply_token], registries.py:78-81. *)
Definition rstep (r : regs) (x : rop) : regs * option exn :=
  match x with
  | Obtain i n o e => obtain r i n o e
  | Apply n f => (apply_token r n f, None)
  end.
(** Lines 38-83, 86-289. *)
Definition rrun (r : regs) (h : list rop) : regs := fold_left (fun r x => fst (rstep r x)) h r.

(** The usual form [@register_xxx(name, ...)] above a function: obtain and
    apply at once; registries.py:13-16 (usage) and 38-83. *)
Definition decorate (r : regs) (i : regid) (name : string) (overwrite excluded : bool) (f : nat)
  : regs * option exn :=
  match obtain r i name overwrite excluded with
  | (r', None) => (apply_token r' (length (tokens r)) f, None)
  | (r', Some e) => (r', Some e)
  end.
(** A decoration as data: registry, name, overwrite, excluded, function (by [regid], registries.py:87). *)
Record deco := mkDeco { d_reg : regid; d_name : string; d_over : bool; d_excl : bool; d_fun : nat }.
(** By [decorate], registries.py:13-16. *)
Definition drun (r : regs) (h : list deco) : regs :=
  fold_left (fun r d => fst (decorate r (d_reg d) (d_name d) (d_over d) (d_excl d) (d_fun d))) h r.

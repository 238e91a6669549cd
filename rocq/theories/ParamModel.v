(** Model of [solcore/parameter_system/parameter_system.py]. *)
From Coq Require Import Reals String Ascii List Bool Arith.
From Verif Require Import Common.
Import ListNotations.
Open Scope R_scope.
Open Scope string_scope.
Open Scope list_scope.

(** The database, a [ConfigParser]: sections with options and their texts
    (parameter_system.py:48, source_managed_class.py:53-58).  The DEFAULT section
    and the interpolation of [%] are not modelled. *)
Definition database := list (string * list (string * string)).

(** Keyword arguments [**others] (parameter_system.py:56): names and numbers. *)
Definition kwargs := list (string * R).

(** First entry of a key (for [eval], parameter_system.py:151, lines 103, 132). *)
Fixpoint lookup {A} (l : list (string * A)) (k : string) : option A :=
  match l with
  | [] => None
  | (k', v) :: l' => if String.eqb k' k then Some v else lookup l' k
  end.
(** [del d[k]], parameter_system.py:120. *)
Definition remove {A} (k : string) (l : list (string * A)) : list (string * A) :=
  filter (fun p => negb (String.eqb (fst p) k)) l.

(** The text before and after the first blank; parameter_system.py:141-145. *)
Fixpoint cut (s : string) : string * option string :=
  match s with
  | EmptyString => (EmptyString, None)
  | String c s' =>
      if Ascii.eqb c " " then (EmptyString, Some s')
      else let (a, b) := cut s' in (String c a, b)
  end.
(** ['T' in string_expression], parameter_system.py:147. *)
Fixpoint mentions_T (s : string) : bool :=
  match s with
  | EmptyString => false
  | String c s' => Ascii.eqb c "T" || mentions_T s'
  end.

(** Python expressions as used in the database and in calculable_parameters.txt:
    numbers, names, operations, [get(name)] and [tget(name, alternative)]
    (parameter_system.py:80-91, 151).  The operations may raise.  Values are real
    numbers: texts ([lowest_band]) and arrays are not modelled. *)
Inductive expr :=
| ENum : R -> expr
| EVar : string -> expr
| EOp : (R -> R -> res R) -> expr -> expr -> expr
| EGet : string -> expr
| ETGet : string -> expr -> expr.

(** Results with exhausted fuel: None stands for "no answer yet" (for [eval], parameter_system.py:151, lines 103, 132). *)
Definition out (A : Type) := option (res A).
(** For [eval], parameter_system.py:151, lines 103, 132. *)
Definition obind {A B} (r : out A) (f : A -> out B) : out B :=
  match r with
  | None => None
  | Some (Err e) => Some (Err e)
  | Some (Ok a) => f a
  end.

Section Param.
Context (db : database).
(** Python's parser, the units system and the numeric names of [math] and
    [builtins_replacement] (parameter_system.py:151-157). *)
Context (parse : string -> res expr) (si : R -> string -> res R) (builtin : string -> option R).

(** [self.database.get(section, option)] when it exists (for [get_parameter], parameter_system.py:56-137). *)
Definition opt (s o : string) : option string :=
  match lookup db s with None => None | Some l => lookup l o end.

(** [eval(expression, builtins, others)], parameter_system.py:151.  [rec] is the
    function behind [get]; without it the names get and tget are unknown.  A keyword
    argument called get or tget hides the function (lines 103, 132) and cannot be
    called. *)
Fixpoint eval (rec : option (string -> out R)) (o : kwargs) (e : expr) : out R :=
  match e with
  | ENum x => Some (Ok x)
  | EVar v =>
      match lookup o v with
      | Some x => Some (Ok x)
      | None => match builtin v with Some x => Some (Ok x) | None => Some (Err NameError) end
      end
  | EOp f a b => obind (eval rec o a) (fun x => obind (eval rec o b) (fun y => Some (f x y)))
  | EGet p =>
      match lookup o "get" with
      | Some _ => Some (Err TypeError)
      | None => match rec with None => Some (Err NameError) | Some g => g p end
      end
  | ETGet p alt =>
      match lookup o "tget" with
      | Some _ => Some (Err TypeError)
      | None =>
          match rec with
          | None => Some (Err NameError)
          | Some g =>
              obind (eval rec o alt) (fun a =>
                match g p with
                | Some (Err ValueError) => Some (Ok a)
                | r => r
                end)
          end
      end
  end.

(** [__eval_string_expression], parameter_system.py:140-153. *)
Definition eval_string (rec : option (string -> out R)) (o : kwargs) (s : string) : out R :=
  let (head, units) := cut s in
  match mentions_T head, lookup o "T" with
  | true, None => Some (Err KeyError)
  | _, _ =>
      match parse head with
      | Err e => Some (Err e)
      | Ok ex =>
          obind (eval rec o ex) (fun v =>
            match units with None => Some (Ok v) | Some u => Some (si v u) end)
      end
  end.

(** [bow], parameter_system.py:36-37. *)
Definition bow (p0 p1 b x : R) : R := p0 * (1 - x) + p1 * x - b * (1 - x) * x.

(** [get_parameter], parameter_system.py:56-137 (without the printing); [fuel]
    counts the depth of the recursion. *)
Fixpoint get_parameter (fuel : nat) (m p : string) (o : kwargs) : out R :=
  match fuel with
  | O => None
  | S f =>
      match lookup db m with
      | None => Some (Err AssertionError)
      | Some _ =>
          match opt "Final Calculables" p, opt m p with
          | Some ex, None => eval_string (Some (fun q => get_parameter f m q o)) o ex
          | _, own =>
              match opt m "x" with
              | Some el =>
                  match lookup o el with
                  | None => Some (Err KeyError)
                  | Some x =>
                      match opt m "parent0", opt m "parent1" with
                      | Some q0, Some q1 =>
                          obind (match own with
                                 | Some s => eval_string None o s
                                 | None => Some (Ok 0)
                                 end) (fun b =>
                          obind (get_parameter f q0 p (remove el o)) (fun v0 =>
                          obind (get_parameter f q1 p (remove el o)) (fun v1 =>
                            Some (Ok (bow v0 v1 b x)))))
                      | _, _ => Some (Err NoOptionError)
                      end
                  end
              | None =>
                  match own with
                  | Some s => eval_string None o s
                  | None =>
                      match opt "Immediate Calculables" p with
                      | Some ex => eval_string (Some (fun q => get_parameter f m q o)) o ex
                      | None => Some (Err ValueError)
                      end
                  end
              end
          end
      end
  end.
End Param.

(** Model of solcore/material_system/material_system.py:426-451 ([latex_string], [plain_string],
    [html_string] of BaseMaterial). *)
From Coq Require Import Ascii String List Arith Bool.
From Verif Require Import Common.
From Coq Require Import List.
Import ListNotations.
Open Scope string_scope.
Open Scope list_scope.

(** material_system.py:430, 432 [s.replace(old, new)]: from the left, without overlaps. [skip] is
    the rest of the last one found. *)
Fixpoint replace_from (old new : string) (skip : nat) (s : string) : string :=
  match s with
  | "" => ""
  | String a r =>
      match skip with
      | S n => replace_from old new n r
      | O => if String.prefix old s
             then (new ++ replace_from old new (String.length old - 1) r)%string
             else String a (replace_from old new 0 r)
      end
  end.
(** With [replace_from], material_system.py:430, 432. *)
Definition replace (old new s : string) : string := replace_from old new 0 s.

(** An argument of [format]: its text, and with three decimals if it is a number (for [put_arg], material_system.py:430). *)
Record arg : Type := Arg { a_text : string; a_dec : option string }.
(** material_system.py:430 and others, [s.format(...)]: [field] is what has been read of a
    replacement field, [n] the number of fields before. (Simplification: fields other than [{}]
    and [{:.3f}] are a ValueError; the templates have no others.) *)
Definition put_arg (args : list arg) (n : nat) (field : string) : res string :=
  match nth_error args n with
  | None => Err IndexError
  | Some a =>
      if String.eqb field "" then Ok (a_text a)
      else if String.eqb field ":.3f"
      then match a_dec a with Some d => Ok d | None => Err ValueError end
      else Err ValueError
  end.
(** With [put_arg], material_system.py:430. *)
Fixpoint format (args : list arg) (n : nat) (field : option string) (s : string) : res string :=
  match s with
  | "" => match field with None => Ok "" | Some _ => Err ValueError end
  | String a r =>
      match field with
      | Some f =>
          if Ascii.eqb a "}"
          then let! x := put_arg args n f in let! y := format args (S n) None r in Ok (x ++ y)%string
          else format args n (Some (f ++ String a "")%string) r
      | None =>
          if Ascii.eqb a "{"
          then match r with
               | String b r' =>
                   if Ascii.eqb b "{" then let! y := format args n None r' in Ok (String a y)
                   else format args n (Some "") r
               | "" => Err ValueError
               end
          else if Ascii.eqb a "}"
          then match r with
               | String b r' =>
                   if Ascii.eqb b "}" then let! y := format args n None r' in Ok (String a y)
                   else Err ValueError
               | "" => Err ValueError
               end
          else let! y := format args n None r in Ok (String a y)
      end
  end.

(** An alloy: [material_string], and of the element of [composition] its name, whether its
    fraction is not zero, and the text of the fraction, in full and with three decimals. The composition has at
    most one element (material_system.py:115-118, 144-147). *)
Record alloy : Type := Alloy { m_string : string; m_element : option (string * bool * (string * string)) }.
(** material_system.py:427-432, 436-441, 445-450: the loop, for one of the three templates. *)
Definition composed (template : string) (m : alloy) : res string :=
  match m_element m with
  | None => Ok (m_string m)
  | Some (e, nonzero, (raw, dec)) =>
      if nonzero
      then format [Arg e None; Arg raw (Some dec)] 0 None (replace e template (m_string m))
      else Ok (replace e "" (m_string m))
  end.
(** material_system.py:426-433 *)
Definition latex_string (m : alloy) : res string :=
  let! s := composed "{}_{{{:.3f}}}" m in
  format [Arg s None] 0 None "$\mathrm{{{}}}$".
(** material_system.py:435-442 *)
Definition plain_string (m : alloy) : res string :=
  let! s := composed "{}{:.3f}" m in format [Arg s None] 0 None "{}".
(** material_system.py:444-451 *)
Definition html_string (m : alloy) : res string :=
  let! s := composed "{}<sub>{:.3f}</sub>" m in format [Arg s None] 0 None "{}".

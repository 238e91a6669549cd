(** Model of the material-to-text conversions:
    [BaseMaterial.__repr__] (material_system/material_system.py:287-299, 453-458),
    [SolcoreMaterialToStr] and [InLineComposition] (structure.py:121-153). *)
From Coq Require Import String Ascii List Bool Arith.
From Verif Require Import Common.
Import ListNotations.
Open Scope list_scope.

(** A Python str (for [split_on], structure.py:140). *)
Definition text := list ascii.
(** String literals as text (for [repr], material_system.py:453-458). *)
Definition t (s : string) : text := list_ascii_of_string s.
(** Single characters used below (for [repr], material_system.py:453-458). *)
Definition space : ascii := " "%char.
(** For [repr], material_system.py:453-458. *)
Definition equals : ascii := "="%char.
(** Material_system/material_system.py:287-299, 453-458, structure.py:121-153. *)
Definition quote : ascii := "'"%char.

(** [str.split(c)] with a one-character separator; structure.py:140, 147. *)
Fixpoint split_on (c : ascii) (s : text) : list text :=
  match s with
  | [] => [[]]
  | x :: s' =>
      if Ascii.eqb x c then [] :: split_on c s'
      else match split_on c s' with
           | [] => [[x]]
           | w :: ws => (x :: w) :: ws
           end
  end.
(** [str.strip(chars)]; structure.py:140-141. *)
Fixpoint lstrip (p : ascii -> bool) (s : text) : text :=
  match s with
  | [] => []
  | x :: s' => if p x then lstrip p s' else s
  end.
(** With [lstrip], structure.py:140-141. *)
Definition strip (p : ascii -> bool) (s : text) : text := rev (lstrip p (rev (lstrip p s))).
(** [a in b] for strings; structure.py:149. *)
Fixpoint is_prefix (a b : text) : bool :=
  match a, b with
  | [], _ => true
  | x :: a', y :: b' => Ascii.eqb x y && is_prefix a' b'
  | _ :: _, [] => false
  end.
(** With [is_prefix], structure.py:149. *)
Fixpoint substring (a b : text) : bool :=
  is_prefix a b || match b with [] => false | _ :: b' => substring a b' end.
(** Equality and order of strings (by code point), used by [sorted] (for [insert_kw], material_system.py:299). *)
Fixpoint text_ltb (a b : text) : bool :=
  match a, b with
  | _, [] => false
  | [], _ :: _ => true
  | x :: a', y :: b' =>
      if (nat_of_ascii x <? nat_of_ascii y)%nat then true
      else if (nat_of_ascii y <? nat_of_ascii x)%nat then false
      else text_ltb a' b'
  end.

(** [sorted(list(kwargs.keys()))], material_system.py:299; the keys of kwargs are
    distinct.  Each key is kept together with the text of its value. *)
Fixpoint insert_kw (kv : text * text) (l : list (text * text)) : list (text * text) :=
  match l with
  | [] => [kv]
  | x :: l' => if text_ltb (fst kv) (fst x) then kv :: l else x :: insert_kw kv l'
  end.
(** With [insert_kw], material_system.py:299. *)
Definition sort_kw (l : list (text * text)) : list (text * text) := fold_right insert_kw [] l.

(** A material instance: class name, the list of composition elements of the
    class and the keyword arguments with the text of their values
    (material_system.py:287-299).  Simplification: an attribute changed after
    construction is not tracked. *)
Record material := mkMaterial {
  m_name : text;
  m_composition : list text;
  m_kwargs : list (text * text)
}.
(** [__init__] raises KeyError when a composition element is not given;
    material_system.py:293-294. *)
Definition new_material (name : text) (composition : list text) (kwargs : list (text * text)) : res material :=
  if forallb (fun e => existsb (fun kv => if list_eq_dec ascii_dec (fst kv) e then true else false) kwargs) composition
  then Ok (mkMaterial name composition kwargs) else Err KeyError.

(** [__repr__], material_system.py:453-458: the parameters, each preceded by a
    blank, between "<'name' material" and ">". *)
Definition repr (m : material) : text :=
  t "<'" ++ m_name m ++ t "' material"
  ++ concat (map (fun kv => space :: fst kv ++ equals :: snd kv) (sort_kw (m_kwargs m))) ++ t ">".

(** The dictionary built by [SolcoreMaterialToStr]; a later assignment
    overwrites an earlier one (material_system/material_system.py:287-299, 453-458, structure.py:121-153). *)
Record composition := mkComposition {
  co_material : text;
  co_element : option (text * text)
}.

(** The loop structure.py:148-151: [rest] are the pieces from position i on; the
    fraction is the text given to [float] (a text that [float] refuses raises
    ValueError: [is_float]). *)
Fixpoint comp_loop (is_float : text -> bool) (name : text) (pieces : list text) (acc : option (text * text))
  : res (option (text * text)) :=
  match pieces with
  | [] => Ok acc
  | p :: rest =>
      if substring p name then
        match rest with
        | [] => Err IndexError
        | v :: _ => if is_float v then comp_loop is_float name rest (Some (p, v)) else Err ValueError
        end
      else comp_loop is_float name rest acc
  end.

(** [SolcoreMaterialToStr], structure.py:134-153. *)
Definition is_angle (c : ascii) : bool := Ascii.eqb c "<"%char || Ascii.eqb c ">"%char.
(** With [is_angle], structure.py:134-153. *)
Definition is_quote (c : ascii) : bool := Ascii.eqb c quote.
(** With [is_angle], structure.py:134-153. *)
Definition material_to_str (is_float : text -> bool) (m : material) : res composition :=
  let words := split_on space (strip is_angle (repr m)) in
  let name := strip is_quote (hd [] words) in
  match m_composition m with
  | [] => Ok (mkComposition name None)
  | _ :: _ =>
      match nth_error words 2 with
      | None => Err IndexError
      | Some w =>
          let! e := comp_loop is_float name (split_on equals w) None in
          Ok (mkComposition name e)
      end
  end.

(** Model of SolcoreMaterialToStr in poisson_drift_diffusion/QWunit.py:412-429 and of the choice of the
    absorption of a layer of a quantum well that uses it, QWunit.py:272-293. *)
From Coq Require Import String Ascii List Bool Arith.
From Verif Require Import Common MatStrModel.
Import ListNotations.
Open Scope list_scope.

Section Text.
(** Whether float() takes a text, QWunit.py:425, and the text of the number it gives ("%s"), line 427. *)
Context (is_float : text -> bool) (show : text -> text).
(** The dictionary of lines 417-425: alloys are told by names of more than four letters, line 419. *)
Definition qw_composition (m : material) : res composition :=
  let words := split_on space (strip is_angle (repr m)) in
  let name := strip is_quote (hd [] words) in
  if (4 <? length name)%nat then
    match nth_error words 2 with
    | None => Err IndexError
    | Some w => let! e := comp_loop is_float name (split_on equals w) None in Ok (mkComposition name e)
    end
  else Ok (mkComposition name None).
(** SolcoreMaterialToStr, lines 415-429: a missing element is a KeyError in line 427. *)
Definition qw_text (m : material) : res text :=
  let! c := qw_composition m in
  match co_element c with
  | None => Err KeyError
  | Some (e, v) => Ok (co_material c ++ t " {'" ++ e ++ t "':" ++ show v ++ t "}")
  end.
(** create_adachi_alpha with a text, absorption_calculator/adachi_alpha.py:24: a text has no main_fraction. *)
Definition adachi_of_text {A} (s : text) : res A := Err AttributeError.
(** The absorption of a layer, QWunit.py:273-293, for the outcome of its own data. *)
Definition layer_absorption {A} (use_adachi : bool) (m : material) (alpha : res A) : res A :=
  if use_adachi then
    match (let! s := qw_text m in adachi_of_text s) with Ok a => Ok a | Err _ => alpha end
  else
    match alpha with Ok a => Ok a | Err _ => let! s := qw_text m in adachi_of_text s end.
End Text.

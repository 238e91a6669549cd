(** C198: texts of materials of quantum wells and the absorption of their layers. *)
From Coq Require Import String Ascii List Bool Arith Lia.
From Verif Require Import Common MatStrModel MatStrProps QwTextModel.
Import ListNotations.
Open Scope list_scope.

Section Props.
Context (is_float : text -> bool) (show : text -> text).

(** The words of the representation of a material start with its name in quotes. *)
Lemma first_word n comp kw : plain n -> (forall k w, In (k, w) kw -> plain k /\ plain w /\ w <> []) ->
  strip is_quote (hd [] (split_on space (strip is_angle (repr (mkMaterial n comp kw))))) = n /\
  (kw = [] -> nth_error (split_on space (strip is_angle (repr (mkMaterial n comp kw)))) 2 = None).
Proof.
  intros hn hk. destruct (sort_kw kw) as [|[k w] rest] eqn:Es.
  - assert (E : split_on space (strip is_angle (repr (mkMaterial n comp kw))) = [quote :: n ++ [quote]; t "material"]).
    { unfold repr. cbn [m_name m_kwargs]. rewrite Es. cbn [map concat app].
      change (t "<'") with ["<"%char; quote]. change (t ">") with [">"%char].
      replace (["<"%char; quote] ++ n ++ t "' material" ++ [">"%char]) with ("<"%char :: (quote :: n ++ t "' material") ++ [">"%char])
        by (do 2 (cbn [app]; rewrite <- ?app_assoc); reflexivity).
      rewrite strip_both by reflexivity. rewrite (strip_id is_angle); [|exact eq_refl|].
      2:{ change (quote :: n ++ t "' material") with ((quote :: n) ++ t "' material"). rewrite rev_app_distr. reflexivity. }
      replace (quote :: n ++ t "' material") with ((quote :: n ++ [quote]) ++ space :: t "material")
        by (do 2 (cbn [app]; rewrite <- ?app_assoc); reflexivity).
      rewrite split_on_app; [reflexivity|].
      intros [E|Hin]; [discriminate|]. apply in_app_iff in Hin as [Hin|[E|[]]]; [|discriminate]. now apply (plain_no_space n). }
    rewrite E. cbn [hd]. split; [now apply strip_plain_quotes|reflexivity].
  - assert (Hin : In (k, w) kw) by (apply sort_kw_in; rewrite Es; now left). destruct (hk _ _ Hin) as (h1 & h2 & h3).
    destruct (words_of_repr n comp kw k w rest hn h1 h2 h3 Es hk) as [more ->]. cbn [hd]. split; [now apply strip_plain_quotes|].
    intros ->. destruct Hin.
Qed.

(** An alloy with a name of more than four letters, whose element comes first among its parameters, is
    described by its name, its element and the number of its fraction. *)
Theorem C198_alloy : forall n e comp kw v m, new_material n (e :: comp) kw = Ok m -> NoDup (map fst kw) -> plain n -> (4 < length n)%nat ->
  (forall k w, In (k, w) kw -> plain k /\ plain w /\ w <> []) -> least e v kw -> is_float v = true -> substring e n = true -> substring v n = false ->
  qw_text is_float show m = Ok (n ++ t " {'" ++ e ++ t "':" ++ show v ++ t "}").
Proof.
  intros n e comp kw v m hm hnd hn hl hall hle hf he hv. unfold new_material in hm.
  match type of hm with (if ?b then _ else _) = _ => destruct b; [|discriminate] end. injection hm as <-.
  destruct (sort_kw_least e v kw hnd hle) as [rest Es]. destruct (hall e v (proj1 hle)) as (h1 & h2 & h3).
  unfold qw_text, qw_composition. destruct (words_of_repr n (e :: comp) kw e v rest hn h1 h2 h3 Es hall) as [more ->].
  cbn [hd nth_error]. rewrite strip_plain_quotes by assumption. apply Nat.ltb_lt in hl. rewrite hl.
  rewrite (split_on_app equals e v) by now apply plain_no_eq. rewrite (split_on_none equals v) by now apply plain_no_eq.
  cbn [comp_loop bindR]. rewrite he, hf. cbn [comp_loop]. rewrite hv. reflexivity.
Qed.
(** Names of up to four letters, among them all binaries of two elements, have no text. *)
Theorem C198_short : forall n comp kw m, new_material n comp kw = Ok m -> plain n -> (length n <= 4)%nat ->
  (forall k w, In (k, w) kw -> plain k /\ plain w /\ w <> []) -> qw_text is_float show m = Err KeyError.
Proof.
  intros n comp kw m hm hn hl hall. unfold new_material in hm.
  match type of hm with (if ?b then _ else _) = _ => destruct b; [|discriminate] end. injection hm as <-.
  destruct (first_word n comp kw hn hall) as [e _]. unfold qw_text, qw_composition. rewrite e.
  replace (4 <? length n)%nat with false by (symmetry; apply Nat.ltb_ge; exact hl). reflexivity.
Qed.
(** Neither have longer names without parameters. *)
Theorem C198_bare : forall n m, new_material n [] [] = Ok m -> plain n -> (4 < length n)%nat -> qw_text is_float show m = Err IndexError.
Proof.
  intros n m hm hn hl. injection hm as <-. destruct (first_word n [] [] hn) as [e1 e2]; [intros k w []|].
  unfold qw_text, qw_composition. rewrite e1, (e2 eq_refl). apply Nat.ltb_lt in hl. rewrite hl. reflexivity.
Qed.
(** The absorption of a layer is that of its own data, whether Adachi's model is asked for or not, and without
    data solving the well raises an exception. *)
Theorem C198_absorption : forall A use m (alpha : res A),
  (forall a, alpha = Ok a -> layer_absorption is_float show use m alpha = Ok a) /\
  (is_ok alpha = false -> is_ok (layer_absorption is_float show use m alpha) = false) /\
  (forall s x, alpha = Err x -> qw_text is_float show m = Ok s -> layer_absorption is_float show false m alpha = Err AttributeError).
Proof.
  intros A use m alpha. unfold layer_absorption, adachi_of_text. split; [|split].
  - intros a ->. destruct use; [|reflexivity]. destruct (qw_text is_float show m); reflexivity.
  - intros h. destruct use; destruct (qw_text is_float show m); cbn [bindR]; destruct alpha; try discriminate; reflexivity.
  - intros s x -> ->. reflexivity.
Qed.
End Props.

(** Adachi's model is used if it is asked for: refuted, for InGaAs and for every outcome of its data. *)
Theorem C198_adachi_refuted : exists m, new_material (t "InGaAs") [t "In"] [(t "In", t "0.2"); (t "T", t "300")] = Ok m /\
  qw_text (fun _ => true) (fun v => v) m = Ok (t "InGaAs {'In':0.2}") /\
  forall A (alpha : res A), layer_absorption (fun _ => true) (fun v => v) true m alpha = alpha.
Proof. eexists. split; [reflexivity|]. split; [reflexivity|]. intros A alpha. reflexivity. Qed.
(** A parameter before the element is taken for it or hides it. *)
Theorem C198_hidden_refuted : exists m, new_material (t "GaAsP") [t "P"] [(t "P", t "0.1"); (t "Na", t "1e+23")] = Ok m /\
  qw_text (fun _ => true) (fun v => v) m = Err KeyError.
Proof. eexists. split; reflexivity. Qed.
Example C198_ex : exists m b c, new_material (t "InGaAs") [t "In"] [(t "T", t "300"); (t "In", t "0.2")] = Ok m /\
  least (t "In") (t "0.2") [(t "T", t "300"); (t "In", t "0.2")] /\ plain (t "InGaAs") /\ substring (t "0.2") (t "InGaAs") = false /\
  new_material (t "GaAs") [] [] = Ok b /\ qw_text (fun _ => true) (fun v => v) b = Err KeyError /\
  new_material (t "GaInSb") [] [] = Ok c /\ qw_text (fun _ => true) (fun v => v) c = Err IndexError.
Proof.
  do 3 eexists. split; [reflexivity|]. split.
  - split; [right; now left|]. intros k w [E|[E|[]]]; injection E as <- <-; [now right|now left].
  - split; [apply plainb_plain; reflexivity|]. repeat split; reflexivity.
Qed.

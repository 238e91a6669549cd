(** Property C23: composition of a material in text form. *)
From Coq Require Import String Ascii List Bool Arith Lia.
From Verif Require Import Common MatStrModel.
Import ListNotations.
Open Scope list_scope.

(** * Text lemmas *)
Lemma split_on_none c s : ~ In c s -> split_on c s = [s].
Proof.
  induction s as [|x s IH]; simpl; [reflexivity|]. intros H.
  destruct (Ascii.eqb_spec x c); [exfalso; apply H; now left|].
  rewrite IH by tauto. reflexivity.
Qed.
Lemma split_on_app c a s : ~ In c a -> split_on c (a ++ c :: s) = a :: split_on c s.
Proof.
  induction a as [|x a IH]; simpl; intros H.
  - now rewrite Ascii.eqb_refl.
  - destruct (Ascii.eqb_spec x c); [exfalso; apply H; now left|].
    rewrite IH by tauto. reflexivity.
Qed.
Lemma lstrip_stop p s : (match s with [] => True | x :: _ => p x = false end) -> lstrip p s = s.
Proof. destruct s as [|x s]; simpl; [reflexivity|]. now intros ->. Qed.
Lemma strip_id p s :
  (match s with [] => True | x :: _ => p x = false end) ->
  (match rev s with [] => True | x :: _ => p x = false end) -> strip p s = s.
Proof.
  intros H1 H2. unfold strip. rewrite (lstrip_stop p s) by assumption.
  rewrite lstrip_stop by assumption. apply rev_involutive.
Qed.
Lemma strip_both p a b s : p a = true -> p b = true ->
  strip p (a :: s ++ [b]) = strip p s.
Proof.
  intros Ha Hb. unfold strip. simpl. rewrite Ha.
  destruct (lstrip p s) as [|x r] eqn:E.
  - assert (lstrip p (s ++ [b]) = []) as ->; [|reflexivity].
    revert E. induction s as [|y s IH]; simpl; [now rewrite Hb|].
    destruct (p y); [assumption|discriminate].
  - assert (lstrip p (s ++ [b]) = (x :: r) ++ [b]) as ->.
    { revert E. induction s as [|y s IH]; simpl; [discriminate|].
      destruct (p y); [assumption|]. now intros [= -> ->]. }
    rewrite rev_app_distr. simpl. now rewrite Hb.
Qed.

Lemma text_ltb_irrefl a : text_ltb a a = false.
Proof. induction a as [|x a IH]; simpl; [reflexivity|]. now rewrite Nat.ltb_irrefl. Qed.
Lemma text_ltb_asym a b : text_ltb a b = true -> text_ltb b a = false.
Proof.
  revert b. induction a as [|x a IH]; intros [|y b]; simpl; try congruence.
  destruct (nat_of_ascii x <? nat_of_ascii y) eqn:E1; destruct (nat_of_ascii y <? nat_of_ascii x) eqn:E2;
  try congruence; [|apply IH].
  apply Nat.ltb_lt in E1, E2. lia.
Qed.

Lemma insert_kw_in kv l x : In x (insert_kw kv l) <-> x = kv \/ In x l.
Proof.
  induction l as [|y l IH]; simpl; [firstorder|].
  destruct (text_ltb _ _); simpl; [firstorder|]. rewrite IH. firstorder.
Qed.
Lemma sort_kw_in l x : In x (sort_kw l) <-> In x l.
Proof. induction l as [|y l IH]; simpl; [tauto|]. rewrite insert_kw_in, IH. firstorder. Qed.

Definition least (e v : text) (kw : list (text * text)) : Prop :=
  In (e, v) kw /\ (forall k w, In (k, w) kw -> (k, w) = (e, v) \/ text_ltb e k = true).

Lemma sort_kw_least e v kw :
  NoDup (map fst kw) -> least e v kw -> exists rest, sort_kw kw = (e, v) :: rest.
Proof.
  intros Hnd [Hin Hle]. induction kw as [|[k w] kw IH]; [destruct Hin|].
  simpl in Hnd. inversion Hnd as [|? ? Hk Hnd']; subst.
  simpl. destruct Hin as [E|Hin].
  - injection E as -> ->. destruct (sort_kw kw) as [|[k' w'] rest] eqn:Es; simpl; [now eexists|].
    assert (In (k', w') kw) as Hk'. { apply sort_kw_in. rewrite Es. now left. }
    destruct (Hle k' w') as [E|L]; [now right| |].
    + injection E as -> ->. exfalso. apply Hk. change e with (fst (e, v)). now apply in_map.
    + rewrite L. now eexists.
  - destruct IH as [rest Hr]; [assumption|assumption| |].
    { intros k' w' H'. apply Hle. now right. }
    rewrite Hr. simpl. destruct (Hle k w) as [E|L]; [now left| |].
    + injection E as -> ->. exfalso. apply Hk. change e with (fst (e, v)). now apply in_map.
    + rewrite (text_ltb_asym _ _ L). now eexists.
Qed.

(** Words that [repr] and [split] treat as one piece. *)
Definition plain (s : text) : Prop :=
  forall c, In c s -> c <> space /\ c <> equals /\ c <> quote /\ is_angle c = false.

Lemma plain_no_space s : plain s -> ~ In space s.
Proof. intros H Hin. destruct (H _ Hin) as [E _]. now apply E. Qed.
Lemma plain_no_eq s : plain s -> ~ In equals s.
Proof. intros H Hin. destruct (H _ Hin) as (_ & E & _). now apply E. Qed.

Lemma strip_plain_quotes n : plain n -> strip is_quote (quote :: n ++ [quote]) = n.
Proof.
  intros H. rewrite strip_both by reflexivity.
  assert (G : forall x, In x n -> is_quote x = false).
  { intros x Hx. destruct (H x Hx) as (_ & _ & E & _). unfold is_quote.
    destruct (Ascii.eqb_spec x quote); [contradiction|reflexivity]. }
  apply strip_id.
  - destruct n; [exact I|]. apply G. now left.
  - destruct (rev n) as [|x r] eqn:E; [exact I|]. apply G. apply in_rev. rewrite E. now left.
Qed.

(** The text after stripping the angle brackets starts with the quoted name, the
    word "material" and the first of the sorted parameters. *)
Lemma words_of_repr n comp kw e v rest :
  plain n -> plain e -> plain v -> v <> [] ->
  sort_kw kw = (e, v) :: rest ->
  (forall k w, In (k, w) kw -> plain k /\ plain w /\ w <> []) ->
  exists more,
    split_on space (strip is_angle (repr (mkMaterial n comp kw)))
    = (quote :: n ++ [quote]) :: t "material" :: (e ++ equals :: v) :: more.
Proof.
  intros Hn He Hv Hv0 Hs Hall. unfold repr. cbn [m_name m_kwargs]. rewrite Hs.
  set (tailp := concat (map (fun kv : text * text => space :: fst kv ++ equals :: snd kv) rest)).
  cbn [map concat fst snd].
  change (t "<'") with ["<"%char; quote]. change (t ">") with [">"%char].
  change (t "' material") with (quote :: space :: t "material").
  set (body := quote :: n ++ quote :: space :: t "material" ++ (space :: e ++ equals :: v) ++ tailp).
  assert (Htail : forall x r, rev ((space :: e ++ equals :: v) ++ tailp) = x :: r -> is_angle x = false).
  { intros x r Hx. unfold tailp in Hx.
    assert (Hr : forall kv, In kv rest -> In kv kw).
    { intros kv Hkv. apply sort_kw_in. rewrite Hs. now right. }
    destruct (rev rest) as [|[k w] rr] eqn:Er.
    - assert (rest = []) as -> by (rewrite <- (rev_involutive rest), Er; reflexivity).
      simpl in Hx. rewrite app_nil_r in Hx.
      rewrite rev_app_distr in Hx. simpl in Hx.
      destruct (rev v) as [|y vr] eqn:Ev.
      { exfalso. apply Hv0. rewrite <- (rev_involutive v), Ev. reflexivity. }
      simpl in Hx. injection Hx as <- _.
      apply (Hv y). apply in_rev. rewrite Ev. now left.
    - assert (rest = rev rr ++ [(k, w)]) as ->.
      { rewrite <- (rev_involutive rest), Er. reflexivity. }
      destruct (Hall k w) as (_ & Hw & Hw0).
      { apply Hr. apply in_or_app. right. now left. }
      rewrite map_app, concat_app in Hx. simpl in Hx. rewrite app_nil_r in Hx.
      change (space :: (e ++ equals :: v) ++ concat (map (fun kv : text * text => space :: fst kv ++ equals :: snd kv) (rev rr)) ++ space :: k ++ equals :: w)
        with ((space :: e ++ equals :: v) ++ concat (map (fun kv : text * text => space :: fst kv ++ equals :: snd kv) (rev rr)) ++ space :: k ++ equals :: w) in Hx.
      rewrite !app_comm_cons, !app_assoc in Hx.
      destruct (rev w) as [|y wr] eqn:Ew.
      { exfalso. apply Hw0. rewrite <- (rev_involutive w), Ew. reflexivity. }
      assert (Hw' : w = rev wr ++ [y]) by (rewrite <- (rev_involutive w), Ew; reflexivity).
      rewrite Hw' in Hx.
      replace (equals :: rev wr ++ [y]) with ((equals :: rev wr) ++ [y]) in Hx by reflexivity.
      rewrite !app_assoc, rev_app_distr in Hx. simpl in Hx. injection Hx as <- _.
      apply (Hw y). apply in_rev. rewrite Ew. now left. }
  assert (Hbody : ["<"%char; quote] ++ n ++ (quote :: space :: t "material") ++
     ((space :: e ++ equals :: v) ++ tailp) ++ [">"%char] = "<"%char :: body ++ [">"%char]).
  { unfold body. cbn [app]. f_equal. f_equal. do 4 (rewrite <- ?app_assoc; cbn [app]). reflexivity. }
  assert (Hgoal : strip is_angle (["<"%char; quote] ++ n ++ (quote :: space :: t "material") ++
     ((space :: e ++ equals :: v) ++ tailp) ++ [">"%char]) = body).
  { rewrite Hbody, strip_both by reflexivity. apply strip_id; [reflexivity|].
    unfold body. destruct (rev (quote :: n ++ quote :: space :: t "material" ++ (space :: e ++ equals :: v) ++ tailp)) as [|x r] eqn:E; [exact I|].
    replace (quote :: n ++ quote :: space :: t "material" ++ (space :: e ++ equals :: v) ++ tailp)
      with ((quote :: n ++ quote :: space :: t "material") ++ ((space :: e ++ equals :: v) ++ tailp)) in E
      by (do 4 (cbn [app]; rewrite <- ?app_assoc); reflexivity).
    rewrite rev_app_distr in E.
    destruct (rev ((space :: e ++ equals :: v) ++ tailp)) as [|x' r'] eqn:E'.
    - exfalso. apply (f_equal (@length _)) in E'. rewrite rev_length in E'. discriminate E'.
    - simpl in E. injection E as <- _. eapply Htail. reflexivity. }
  replace (concat ((space :: e ++ equals :: v) :: map (fun kv : text * text => space :: fst kv ++ equals :: snd kv) rest))
    with ((space :: e ++ equals :: v) ++ tailp) by reflexivity.
  change ((space :: e ++ equals :: v) ++ concat (map (fun kv : list ascii * list ascii => space :: fst kv ++ equals :: snd kv) rest))
    with ((space :: e ++ equals :: v) ++ tailp).
  rewrite Hgoal. unfold body.
  replace (quote :: n ++ quote :: space :: t "material" ++ (space :: e ++ equals :: v) ++ tailp)
    with ((quote :: n ++ [quote]) ++ space :: (t "material" ++ space :: ((e ++ equals :: v) ++ tailp)))
    by (do 4 (cbn [app]; rewrite <- ?app_assoc); reflexivity).
  rewrite split_on_app.
  2:{ intros [E|Hin]; [discriminate|]. apply in_app_iff in Hin as [Hin|[E|[]]]; [|discriminate].
      now apply (plain_no_space n). }
  rewrite split_on_app.
  2:{ simpl. intuition discriminate. }
  assert (Hev : ~ In space (e ++ equals :: v)).
  { intros Hin. apply in_app_iff in Hin as [Hin|[E|Hin]]; [now apply (plain_no_space e)|discriminate|now apply (plain_no_space v)]. }
  unfold tailp. destruct rest as [|[k w] rest'].
  - simpl. rewrite app_nil_r. rewrite (split_on_none _ _ Hev). now eexists.
  - cbn [map concat fst snd app]. rewrite (split_on_app space _ _ Hev). now eexists.
Qed.

(** * C23 *)

(** When the alloy element comes first in alphabetical order among the keyword
    arguments, the description keeps material name, element and fraction (names,
    elements and printed values being single words; the element occurs in the
    name, the printed value does not).  A binary keeps its name.  Missing for the
    full property: parameters that sort before the element (refuted below). *)
Theorem C23_material_string_partial :
  forall is_float n comp kw m,
    new_material n comp kw = Ok m ->
    NoDup (map fst kw) -> plain n ->
    (forall k w, In (k, w) kw -> plain k /\ plain w /\ w <> []) ->
    match comp with
    | [] => material_to_str is_float m = Ok (mkComposition n None)
    | e :: _ => forall v, least e v kw -> is_float v = true ->
        substring e n = true -> substring v n = false ->
        material_to_str is_float m = Ok (mkComposition n (Some (e, v)))
    end.
Proof.
  intros isf n comp kw m Hm Hnd Hn Hall.
  unfold new_material in Hm.
  match type of Hm with (if ?b then _ else _) = _ => destruct b; [|discriminate] end. injection Hm as <-.
  destruct comp as [|e comp].
  - unfold material_to_str. cbn [m_composition].
    destruct (sort_kw kw) as [|[k w] rest] eqn:Es.
    { unfold repr. cbn [m_name m_kwargs]. rewrite Es. cbn [map concat app].
      change (t "<'") with ["<"%char; quote]. change (t ">") with [">"%char].
      replace (["<"%char; quote] ++ n ++ t "' material" ++ [">"%char])
        with ("<"%char :: (quote :: n ++ t "' material") ++ [">"%char])
        by (do 2 (cbn [app]; rewrite <- ?app_assoc); reflexivity).
      rewrite strip_both by reflexivity. rewrite (strip_id is_angle); [|exact eq_refl|].
      2:{ change (quote :: n ++ t "' material") with ((quote :: n) ++ t "' material").
          rewrite rev_app_distr. reflexivity. }
      replace (quote :: n ++ t "' material") with ((quote :: n ++ [quote]) ++ space :: t "material")
        by (do 2 (cbn [app]; rewrite <- ?app_assoc); reflexivity).
      rewrite split_on_app.
      2:{ intros [E|Hin]; [discriminate|]. apply in_app_iff in Hin as [Hin|[E|[]]]; [|discriminate].
          now apply (plain_no_space n). }
      cbn [hd]. now rewrite strip_plain_quotes. }
    assert (In (k, w) kw) as Hin. { apply sort_kw_in. rewrite Es. now left. }
    destruct (Hall _ _ Hin) as (Hk & Hw & Hw0).
    destruct (words_of_repr n [] kw k w rest Hn Hk Hw Hw0 Es Hall) as [more ->].
    cbn [hd]. now rewrite strip_plain_quotes.
  - intros v Hl Hf He Hv. destruct (sort_kw_least e v kw Hnd Hl) as [rest Es].
    destruct (Hall e v (proj1 Hl)) as (Hpe & Hpv & Hv0).
    unfold material_to_str. cbn [m_composition].
    destruct (words_of_repr n (e :: comp) kw e v rest Hn Hpe Hpv Hv0 Es Hall) as [more ->].
    cbn [hd nth_error]. rewrite strip_plain_quotes by assumption.
    rewrite (split_on_app equals e v) by now apply plain_no_eq.
    rewrite (split_on_none equals v) by now apply plain_no_eq.
    simpl. rewrite He, Hf. simpl. rewrite Hv. reflexivity.
Qed.
Print Assumptions C23_material_string_partial.

Definition plainb (s : text) : bool :=
  forallb (fun c => negb (Ascii.eqb c space) && negb (Ascii.eqb c equals) &&
                    negb (Ascii.eqb c quote) && negb (is_angle c)) s.
Lemma plainb_plain s : plainb s = true -> plain s.
Proof.
  unfold plainb. rewrite forallb_forall. intros H c Hc. specialize (H c Hc).
  rewrite !andb_true_iff, !negb_true_iff, !Ascii.eqb_neq in H. tauto.
Qed.

Example C23_case :
  exists m, new_material (t "AlGaAs") [t "Al"] [(t "Nd", t "1e+23"); (t "Al", t "0.3")] = Ok m /\
    least (t "Al") (t "0.3") [(t "Nd", t "1e+23"); (t "Al", t "0.3")] /\
    plain (t "AlGaAs") /\ substring (t "Al") (t "AlGaAs") = true /\
    substring (t "0.3") (t "AlGaAs") = false.
Proof.
  eexists. split; [reflexivity|]. split.
  - split; [right; now left|]. intros k w [E|[E|[]]]; injection E as <- <-; [now right|now left].
  - split; [apply plainb_plain; reflexivity|]. split; reflexivity.
Qed.

(** GaAsP with P=0.1 and an acceptor concentration: the parameter "Na" sorts
    before "P", and the description has lost the composition. *)
Theorem C23_material_string_refuted :
  exists m,
    new_material (t "GaAsP") [t "P"] [(t "P", t "0.1"); (t "Na", t "1e+23")] = Ok m /\
    material_to_str (fun _ => true) m = Ok (mkComposition (t "GaAsP") None).
Proof. eexists. split; reflexivity. Qed.
Print Assumptions C23_material_string_refuted.

(** C174: the SMARTS input file, theorems. *)
From Coq Require Import ZArith QArith Ascii String List Arith Bool Lia.
From Verif Require Import Common SmartsModel SmartsProps.
From Coq Require Import List.
Import ListNotations.
Open Scope string_scope.
Open Scope list_scope.

(** * Formatting *)
Lemma ok_inj {A} (a b : A) : Ok a = Ok b -> a = b.
Proof. intro H. inversion H. reflexivity. Qed.
Fixpoint free (a : ascii) (s : string) : bool :=
  match s with "" => true | String b r => negb (Ascii.eqb b a) && free a r end.
Definition plain (t : tok) : bool :=
  match t with L s => free "{" s && free "}" s | F k => free "{" k && free "}" k end.
Lemma app_assoc_s (a b d : string) : ((a ++ b) ++ d = a ++ b ++ d)%string.
Proof. induction a as [|x a IH]; [reflexivity|]. cbn [String.append]. rewrite IH. reflexivity. Qed.
Lemma app_nil_s (a : string) : (a ++ "" = a)%string.
Proof. induction a as [|x a IH]; [reflexivity|]. cbn [String.append]. rewrite IH. reflexivity. Qed.
Lemma format_lit o s r : free "{" s = true ->
  format o (s ++ r)%string None = (let! x := format o r None in Ok (s ++ x)%string).
Proof. induction s as [|a s IH]; intro H.
  - cbn [String.append]. destruct (format o r None); reflexivity.
  - cbn [free] in H. apply andb_true_iff in H. destruct H as [H1 H2]. apply negb_true_iff in H1.
    cbn [String.append format]. rewrite H1, (IH H2). destruct (format o r None); reflexivity. Qed.
Lemma format_name o k r n : free "}" k = true ->
  format o (k ++ String "}" r)%string (Some n)
  = (let! v := item o (n ++ k)%string in let! x := format o r None in Ok (v_txt v ++ x)%string).
Proof. revert n. induction k as [|a k IH]; intros n H.
  - cbn [String.append format]. rewrite app_nil_s. reflexivity.
  - cbn [free] in H. apply andb_true_iff in H. destruct H as [H1 H2]. apply negb_true_iff in H1.
    cbn [String.append format]. rewrite H1, (IH _ H2), app_assoc_s. reflexivity. Qed.
Lemma format_given o t r : forallb plain t = true -> (forall k, In k (names t) -> given o k) ->
  format o (template t ++ r)%string None = (let! x := format o r None in Ok (written o t ++ x)%string).
Proof. induction t as [|[s|k] t IH]; intros Hp Hg.
  - cbn [template String.append written]. destruct (format o r None); reflexivity.
  - cbn [forallb plain] in Hp. apply andb_true_iff in Hp. destruct Hp as [H1 H2].
    apply andb_true_iff in H1. destruct H1 as [H1 _].
    cbn [template written]. rewrite app_assoc_s, (format_lit _ _ _ H1), (IH H2 Hg).
    destruct (format o r None) as [x|e]; [cbn [bindR]; rewrite app_assoc_s|]; reflexivity.
  - cbn [forallb plain] in Hp. apply andb_true_iff in Hp. destruct Hp as [H1 H2].
    apply andb_true_iff in H1. destruct H1 as [_ H1].
    cbn [template written]. rewrite !app_assoc_s. cbn [String.append format Ascii.eqb Bool.eqb].
    rewrite (format_name _ _ _ _ H1). cbn [String.append].
    assert (Hk : given o k) by (apply Hg; left; reflexivity).
    rewrite IH; [|exact H2|intros k' Hk'; apply Hg; right; exact Hk'].
    unfold given, item in *. destruct (get o k) as [v|]; [|contradiction]. cbn [bindR].
    destruct (format o r None) as [x|e]; [cbn [bindR]; rewrite app_assoc_s|]; reflexivity. Qed.
Lemma format_missing o t r k : forallb plain t = true -> In k (names t) -> ~ given o k ->
  format o (template t ++ r)%string None = Err KeyError.
Proof. induction t as [|[s|k'] t IH]; intros Hp Hk Hg.
  - destruct Hk.
  - cbn [forallb plain] in Hp. apply andb_true_iff in Hp. destruct Hp as [H1 H2].
    apply andb_true_iff in H1. destruct H1 as [H1 _].
    cbn [template]. rewrite app_assoc_s, (format_lit _ _ _ H1), (IH H2 Hk Hg). reflexivity.
  - cbn [forallb plain] in Hp. apply andb_true_iff in Hp. destruct Hp as [H1 H2].
    apply andb_true_iff in H1. destruct H1 as [_ H1].
    cbn [template]. rewrite !app_assoc_s. cbn [String.append format Ascii.eqb Bool.eqb].
    rewrite (format_name _ _ _ _ H1). cbn [String.append].
    unfold given, item in *. destruct (get o k') as [v|] eqn:E; [|reflexivity].
    destruct Hk as [->|Hk]; [exfalso; apply Hg; rewrite E; discriminate|].
    cbn [bindR]. rewrite (IH H2 Hk Hg). reflexivity. Qed.
(** The whole schema. *)
Lemma newline_free : free "{" newline = true.
Proof. reflexivity. Qed.
Lemma schema_given o l : l <> [] -> (forall t, In t l -> forallb plain t = true) ->
  (forall k, In k (flat_map names l) -> given o k) ->
  exists s, format o (String.concat newline (map template l)) None = Ok s /\ (s ++ newline)%string = file o l.
Proof. induction l as [|t l IH]; intros Hn Hp Hg; [contradiction|].
  assert (Ht : forall k, In k (names t) -> given o k) by (intros k Hk; apply Hg, in_or_app; left; exact Hk).
  destruct l as [|t' l].
  - exists (written o t). cbn [map String.concat file].
    rewrite <- (app_nil_s (template t)), format_given by (try exact Ht; apply Hp; left; reflexivity).
    cbn [format bindR]. rewrite !app_nil_s. split; reflexivity.
  - destruct IH as [s [H1 H2]]; [discriminate|intros; apply Hp; right; assumption|
      intros k Hk; apply Hg, in_or_app; right; exact Hk|].
    exists (written o t ++ newline ++ s)%string. split.
    + change (String.concat newline (map template (t :: t' :: l)))
        with (template t ++ newline ++ String.concat newline (map template (t' :: l)))%string.
      rewrite format_given by (try exact Ht; apply Hp; left; reflexivity).
      rewrite (format_lit _ _ _ newline_free), H1. reflexivity.
    + change (file o (t :: t' :: l)) with (written o t ++ newline ++ file o (t' :: l))%string.
      rewrite <- H2, !app_assoc_s. reflexivity. Qed.
Lemma schema_missing o l k : (forall t, In t l -> forallb plain t = true) -> In k (flat_map names l) ->
  ~ given o k -> format o (String.concat newline (map template l)) None = Err KeyError.
Proof. induction l as [|t l IH]; intros Hp Hk Hg; [destruct Hk|].
  assert (Hpt : forallb plain t = true) by (apply Hp; left; reflexivity).
  destruct (in_dec string_dec k (names t)) as [Hi|Hi].
  - destruct l as [|t' l].
    + cbn [map String.concat]. rewrite <- (app_nil_s (template t)). exact (format_missing o t "" k Hpt Hi Hg).
    + change (String.concat newline (map template (t :: t' :: l)))
        with (template t ++ newline ++ String.concat newline (map template (t' :: l)))%string.
      exact (format_missing o t _ k Hpt Hi Hg).
  - cbn [flat_map] in Hk. apply in_app_or in Hk. destruct Hk as [Hk|Hk]; [contradiction|].
    destruct l as [|t' l]; [destruct Hk|].
    change (String.concat newline (map template (t :: t' :: l)))
      with (template t ++ newline ++ String.concat newline (map template (t' :: l)))%string.
    destruct (Exists_dec (fun k => get o k = None) (names t)) as [He|He].
    { intro x. destruct (get o x); [right; discriminate|left; reflexivity]. }
    + apply Exists_exists in He. destruct He as [k' [Hi' Hk']].
      apply (format_missing o t _ k' Hpt Hi'). unfold given. rewrite Hk'. intro Hc. exact (Hc eq_refl).
    + rewrite format_given; [|exact Hpt|].
      * rewrite (format_lit _ _ _ newline_free), IH; [reflexivity|intros; apply Hp; right; assumption|exact Hk|exact Hg].
      * intros x Hx Hc. apply He, Exists_exists. exists x. split; assumption. Qed.

(** * The list of cards *)
Lemma present_app o a b : present o (a ++ b) = present o a ++ present o b.
Proof. unfold present. rewrite filter_app, map_app. reflexivity. Qed.
Definition all_given (o : sdict) : Prop :=
  given o "IH2O" /\ given o "IO3" /\ (given o "IGAS" /\ (holds o (Is "IGAS" 0) = true -> given o "ILOAD"))
  /\ given o "AEROS" /\ given o "IALBDX"
  /\ (given o "ITILT" /\ (holds o (Is "ITILT" 1) = true -> given o "IALBDG"))
  /\ given o "ICIRC" /\ given o "ISCAN".
Lemma contents_ok o : flags_ok o -> all_given o -> contents o = Ok (map template (present o table)).
Proof. intros [F2 [F3 [F9 [F17 F12]]]] [G4 [G5 [G6 [G8 [G10 [G10b [G13 G14]]]]]]].
  unfold contents. cbn [appended].
  rewrite (proj1 (gives2 o) F2), (proj1 (gives3 o) F3), (proj1 (gives4 o) G4), (proj1 (gives5 o) G5),
    (proj1 (gives6 o) G6), (proj1 (gives8 o) G8), (proj1 (gives9 o) F9), (proj1 (gives10 o) G10),
    (proj1 (gives10b o) G10b), (proj1 (gives12 o) F12), (proj1 (gives13 o) G13), (proj1 (gives14 o) G14),
    (proj1 (gives17 o) F17).
  cbn [bindR]. unfold table. rewrite !present_app, !map_app, app_nil_r. reflexivity. Qed.
Lemma appended_all o l r : appended o l = Ok r -> forall f, In f l -> exists a, f o = Ok a.
Proof. revert r. induction l as [|g l IH]; intros r H f Hf; [destruct Hf|].
  cbn [appended] in H. destruct (g o) as [a|e] eqn:E; [|discriminate H]. cbn [bindR] in H.
  destruct (appended o l) as [b|e] eqn:E2; [|discriminate H].
  destruct Hf as [<-|Hf]; [exists a; exact E|exact (IH b eq_refl f Hf)]. Qed.
Lemma contents_flags o l : contents o = Ok l -> flags_ok o /\ all_given o.
Proof. intro H. assert (A := appended_all o _ _ H). clear H.
  assert (G : forall f t ok, gives f t ok -> In f [seg2; seg3; seg4; seg5; seg6; seg8; seg9; seg10; seg10b; seg12; seg13; seg14; seg17] -> ok o).
  { intros f t ok Hg Hi. destruct (A f Hi) as [a Ha]. exact (proj2 (Hg o) a Ha). }
  unfold flags_ok, all_given. repeat apply conj.
  - apply (G _ _ _ gives2); cbn; tauto.
  - apply (G _ _ _ gives3); cbn; tauto.
  - apply (G _ _ _ gives9); cbn; tauto.
  - apply (G _ _ _ gives17); cbn; tauto.
  - apply (G _ _ _ gives12); cbn; tauto.
  - apply (G _ _ _ gives4); cbn; tauto.
  - apply (G _ _ _ gives5); cbn; tauto.
  - apply (G _ _ _ gives6); cbn; tauto.
  - apply (G _ _ _ gives6); cbn; tauto.
  - apply (G _ _ _ gives8); cbn; tauto.
  - apply (G _ _ _ gives10); cbn; tauto.
  - apply (G _ _ _ gives10b); cbn; tauto.
  - apply (G _ _ _ gives10b); cbn; tauto.
  - apply (G _ _ _ gives13); cbn; tauto.
  - apply (G _ _ _ gives14); cbn; tauto. Qed.
Lemma table_plain : forallb (fun e => forallb plain (snd e)) table = true.
Proof. vm_compute. reflexivity. Qed.
Lemma present_plain o t : In t (present o table) -> forallb plain t = true.
Proof. unfold present. intro H. apply in_map_iff in H. destruct H as [e [<- He]]. apply filter_In in He.
  exact (proj1 (forallb_forall _ _) table_plain e (proj1 He)). Qed.
Lemma needed_in o e k : In e table -> holds o (fst e) = true -> In k (names (snd e)) -> In k (needed o).
Proof. intros He Hh Hk. unfold needed. apply in_flat_map. exists (snd e). split; [|exact Hk].
  unfold present. apply in_map, filter_In. split; assumption. Qed.
Ltac entry_in := unfold table, t2, t3, t4, t5, t6, t8, t9, t10, t10b, t12, t13, t14, t17; cbn [app In]; tauto.
Lemma needed_flags o : (forall k, In k (needed o) -> given o k) -> all_given o.
Proof. intro H.
  assert (N : forall e k, In e table -> holds o (fst e) = true -> In k (names (snd e)) -> given o k)
    by (intros e k He Hh Hk; apply H; exact (needed_in o e k He Hh Hk)).
  unfold all_given. repeat apply conj.
  - apply (N (Always, line ["IH2O"] "4")); [entry_in|reflexivity|left; reflexivity].
  - apply (N (Always, line ["IO3"] "5")); [entry_in|reflexivity|left; reflexivity].
  - apply (N (Always, line ["IGAS"] "6")); [entry_in|reflexivity|left; reflexivity].
  - intro Hc. apply (N (Is "IGAS" 0, line ["ILOAD"] "6a")); [entry_in|exact Hc|left; reflexivity].
  - apply (N (Always, quoted "AEROS" "8")); [entry_in|reflexivity|left; reflexivity].
  - apply (N (Always, line ["IALBDX"] "10")); [entry_in|reflexivity|left; reflexivity].
  - apply (N (Always, line ["ITILT"] "10b")); [entry_in|reflexivity|left; reflexivity].
  - intro Hc. apply (N (Is "ITILT" 1, line ["IALBDG"; "TILT"; "WAZIM"] "10c")); [entry_in|exact Hc|left; reflexivity].
  - apply (N (Always, line ["ICIRC"] "13")); [entry_in|reflexivity|left; reflexivity].
  - apply (N (Always, line ["ISCAN"] "14")); [entry_in|reflexivity|left; reflexivity]. Qed.
Lemma present_nonempty o : present o table <> [].
Proof. intro H. assert (Hi : In (quoted "COMNT" "1") (present o table)).
  { unfold present. apply in_map_iff. exists (Always, quoted "COMNT" "1"). split; [reflexivity|].
    apply filter_In. split; [entry_in|reflexivity]. }
  rewrite H in Hi. destruct Hi. Qed.

(** * C174 *)
(** The file is written exactly when the flags choose an alternative and every option of a card
    in the file is given; it is the cards of the table in order, one to a line. *)
Theorem C174_file o s : build_smarts_file o = Ok s <->
  flags_ok o /\ (forall k, In k (needed o) -> given o k) /\ s = file o (present o table).
Proof. split.
  - intro H. unfold build_smarts_file in H. destruct (contents o) as [l|e] eqn:E; [|discriminate H].
    destruct (contents_flags o l E) as [Hf Ha]. rewrite (contents_ok o Hf Ha) in E. apply ok_inj in E. subst l.
    assert (Hg : forall k, In k (needed o) -> given o k).
    { intros k Hk Hn. cbn [bindR] in H.
      rewrite (schema_missing o (present o table) k (present_plain o) Hk) in H; [discriminate H|].
      intro Hc. exact (Hc Hn). }
    split; [exact Hf|]. split; [exact Hg|].
    destruct (schema_given o (present o table) (present_nonempty o) (present_plain o) Hg) as [x [H1 H2]].
    cbn [bindR] in H. rewrite H1 in H. cbn [bindR] in H. apply ok_inj in H. rewrite <- H. exact H2.
  - intros [Hf [Hg ->]]. unfold build_smarts_file. rewrite (contents_ok o Hf (needed_flags o Hg)).
    destruct (schema_given o (present o table) (present_nonempty o) (present_plain o) Hg) as [x [H1 H2]].
    cbn [bindR]. rewrite H1. cbn [bindR]. rewrite H2. reflexivity. Qed.
(** An option that is missing is a KeyError. *)
Theorem C174_missing o k : flags_ok o -> In k (needed o) -> ~ given o k ->
  build_smarts_file o = Err KeyError.
Proof. intros Hf Hk Hn.
  assert (Hall : forall l r, appended o l = Err r ->
    (forall f, In f l -> exists t ok, gives f t ok /\ (f o = Err KeyError \/ ok o)) -> r = KeyError).
  { induction l as [|f l IH]; intros r H HG; [discriminate H|]. cbn [appended] in H.
    destruct (HG f (or_introl eq_refl)) as [t [ok [Hgv [He|Hok]]]].
    - rewrite He in H. cbn [bindR] in H. injection H as <-. reflexivity.
    - rewrite (proj1 (Hgv o) Hok) in H. cbn [bindR] in H.
      destruct (appended o l) as [b|e] eqn:E; [discriminate H|]. injection H as ->.
      apply (IH r eq_refl). intros g Hg. apply HG. right; exact Hg. }
  assert (D : forall k, get o k = None \/ given o k)
    by (intro x; unfold given; destruct (get o x); [right; discriminate|left; reflexivity]).
  unfold build_smarts_file. destruct (contents o) as [l|e] eqn:E.
  - destruct (contents_flags o l E) as [_ Ha]. rewrite (contents_ok o Hf Ha) in E. apply ok_inj in E. subst l.
    cbn [bindR]. rewrite (schema_missing o _ k (present_plain o) Hk Hn). reflexivity.
  - cbn [bindR]. f_equal. apply (Hall _ _ E). clear E Hk Hn.
    destruct Hf as [F2 [F3 [F9 [F17 F12]]]].
    intros f Hf. repeat destruct Hf as [<-|Hf]; [..|destruct Hf].
    + exists t2, (fun o => selects o "ISPR" 3). split; [exact gives2|right; exact F2].
    + exists t3, (fun o => selects o "IATMOS" 2). split; [exact gives3|right; exact F3].
    + eexists _, _. split; [exact gives4|]. destruct (D "IH2O") as [D1|D1]; [left|right; exact D1].
      unfold seg4, when, equals, item. rewrite D1. reflexivity.
    + eexists _, _. split; [exact gives5|]. destruct (D "IO3") as [D1|D1]; [left|right; exact D1].
      unfold seg5, when, equals, item. rewrite D1. reflexivity.
    + eexists _, _. split; [exact gives6|]. destruct (D "IGAS") as [D1|D1].
      { left. unfold seg6, equals, item. rewrite D1. reflexivity. }
      destruct (holds o (Is "IGAS" 0)) eqn:Hh.
      * destruct (D "ILOAD") as [D2|D2]; [left|right; split; [exact D1|intros _; exact D2]].
        unfold seg6. rewrite (is_given o _ _ D1), Hh. cbn [bindR]. unfold when, equals, item. rewrite D2. reflexivity.
      * right. cbv beta. split; [exact D1|intro Hc; discriminate Hc].
    + eexists _, _. split; [exact gives8|]. destruct (D "AEROS") as [D1|D1]; [left|right; exact D1].
      unfold seg8, item. rewrite D1. reflexivity.
    + exists t9, (fun o => selects o "ITURB" 6). split; [exact gives9|right; exact F9].
    + eexists _, _. split; [exact gives10|]. destruct (D "IALBDX") as [D1|D1]; [left|right; exact D1].
      unfold seg10, when, equals, item. rewrite D1. reflexivity.
    + eexists _, _. split; [exact gives10b|]. destruct (D "ITILT") as [D1|D1].
      { left. unfold seg10b, equals, item. rewrite D1. reflexivity. }
      destruct (holds o (Is "ITILT" 1)) eqn:Hh.
      * destruct (D "IALBDG") as [D2|D2]; [left|right; split; [exact D1|intros _; exact D2]].
        unfold seg10b. rewrite (is_given o _ _ D1), Hh. cbn [bindR]. unfold when, equals, item. rewrite D2. reflexivity.
      * right. cbv beta. split; [exact D1|intro Hc; discriminate Hc].
    + exists t12, (fun o => number (get o "IPRT") <> None). split; [exact gives12|right; exact F12].
    + eexists _, _. split; [exact gives13|]. destruct (D "ICIRC") as [D1|D1]; [left|right; exact D1].
      unfold seg13, when, equals, item. rewrite D1. reflexivity.
    + eexists _, _. split; [exact gives14|]. destruct (D "ISCAN") as [D1|D1]; [left|right; exact D1].
      unfold seg14, when, equals, item. rewrite D1. reflexivity.
    + exists t17, (fun o => selects o "IMASS" 5). split; [exact gives17|right; exact F17]. Qed.

(** Any other failure is a flag that chooses nothing. *)
Theorem C174_flags o e : build_smarts_file o = Err e -> e <> KeyError -> ~ flags_ok o.
Proof. intros H He Hf. destruct (Forall_dec (fun k => get o k <> None)
    (fun k => match get o k as v return {v <> None} + {~ v <> None} with
              | Some v => left (fun H => eq_ind (Some v) (fun x => match x with Some _ => True | None => False end) I None H)
              | None => right (fun H => H eq_refl) end) (needed o)) as [Ha|Ha].
  - assert (Hs : build_smarts_file o = Ok (file o (present o table))).
    { apply C174_file. split; [exact Hf|]. split; [|reflexivity]. intros k Hk.
      exact (proj1 (Forall_forall _ _) Ha k Hk). }
    rewrite Hs in H. discriminate H.
  - apply neg_Forall_Exists_neg in Ha.
    + apply Exists_exists in Ha. destruct Ha as [k [Hk Hn]].
      rewrite (C174_missing o k Hf Hk Hn) in H. apply He. inversion H. reflexivity.
    + intro k. destruct (get o k); [left; discriminate|right; intro Hc; exact (Hc eq_refl)]. Qed.
(** Options that no card of the file needs do not matter. *)
Lemma holds_same o o' : (forall k, In k (needed o) -> get o' k = get o k) ->
  forall e, In e table -> holds o' (fst e) = holds o (fst e).
Proof. intros H.
  assert (N : forall e k, In e table -> holds o (fst e) = true -> In k (names (snd e)) -> get o' k = get o k)
    by (intros e k He Hh Hk; apply H; exact (needed_in o e k He Hh Hk)).
  assert (A1 : get o' "ISPR" = get o "ISPR") by (apply (N (Always, line ["ISPR"] "2")); [entry_in|reflexivity|left; reflexivity]).
  assert (A2 : get o' "IATMOS" = get o "IATMOS") by (apply (N (Always, line ["IATMOS"] "3")); [entry_in|reflexivity|left; reflexivity]).
  assert (A3 : get o' "IH2O" = get o "IH2O") by (apply (N (Always, line ["IH2O"] "4")); [entry_in|reflexivity|left; reflexivity]).
  assert (A4 : get o' "IO3" = get o "IO3") by (apply (N (Always, line ["IO3"] "5")); [entry_in|reflexivity|left; reflexivity]).
  assert (A5 : get o' "IGAS" = get o "IGAS") by (apply (N (Always, line ["IGAS"] "6")); [entry_in|reflexivity|left; reflexivity]).
  assert (A6 : get o' "AEROS" = get o "AEROS") by (apply (N (Always, quoted "AEROS" "8")); [entry_in|reflexivity|left; reflexivity]).
  assert (A7 : get o' "ITURB" = get o "ITURB") by (apply (N (Always, line ["ITURB"] "9")); [entry_in|reflexivity|left; reflexivity]).
  assert (A8 : get o' "IALBDX" = get o "IALBDX") by (apply (N (Always, line ["IALBDX"] "10")); [entry_in|reflexivity|left; reflexivity]).
  assert (A9 : get o' "ITILT" = get o "ITILT") by (apply (N (Always, line ["ITILT"] "10b")); [entry_in|reflexivity|left; reflexivity]).
  assert (A10 : get o' "IPRT" = get o "IPRT") by (apply (N (Always, line ["IPRT"] "12")); [entry_in|reflexivity|left; reflexivity]).
  assert (A11 : get o' "ICIRC" = get o "ICIRC") by (apply (N (Always, line ["ICIRC"] "13")); [entry_in|reflexivity|left; reflexivity]).
  assert (A12 : get o' "ISCAN" = get o "ISCAN") by (apply (N (Always, line ["ISCAN"] "14")); [entry_in|reflexivity|left; reflexivity]).
  assert (A13 : get o' "IMASS" = get o "IMASS") by (apply (N (Always, line ["IMASS"] "17")); [entry_in|reflexivity|left; reflexivity]).
  assert (B1 : holds o' (Both (Is "IGAS" 0) (Is "ILOAD" 0)) = holds o (Both (Is "IGAS" 0) (Is "ILOAD" 0))).
  { cbn [holds]. rewrite A5. destruct (holds o (Is "IGAS" 0)) eqn:Hh.
    - rewrite (N (Is "IGAS" 0, line ["ILOAD"] "6a") "ILOAD"); [reflexivity|entry_in|exact Hh|left; reflexivity].
    - cbn [holds] in Hh. rewrite Hh. reflexivity. }
  assert (B2 : holds o' (Both (Is "ITILT" 1) (Is "IALBDG" 1)) = holds o (Both (Is "ITILT" 1) (Is "IALBDG" 1))).
  { cbn [holds]. rewrite A9. destruct (holds o (Is "ITILT" 1)) eqn:Hh.
    - rewrite (N (Is "ITILT" 1, line ["IALBDG"; "TILT"; "WAZIM"] "10c") "IALBDG"); [reflexivity|entry_in|exact Hh|left; reflexivity].
    - cbn [holds] in Hh. rewrite Hh. reflexivity. }
  intros e He. unfold table, t2, t3, t4, t5, t6, t8, t9, t10, t10b, t12, t13, t14, t17 in He. cbn [app In] in He.
  repeat destruct He as [<-|He]; [..|destruct He]; cbn [fst]; try exact B1; try exact B2; cbn [holds];
    rewrite ?A1, ?A2, ?A3, ?A4, ?A5, ?A6, ?A7, ?A8, ?A9, ?A10, ?A11, ?A12, ?A13; reflexivity. Qed.
Lemma written_same o o' t : (forall k, In k (names t) -> get o' k = get o k) -> written o' t = written o t.
Proof. induction t as [|[s|k] t IH]; intro H; cbn [written]; [reflexivity|rewrite (IH H); reflexivity|].
  rewrite IH by (intros x Hx; apply H; right; exact Hx). rewrite (H k) by (left; reflexivity). reflexivity. Qed.
Lemma file_same o o' l : (forall k, In k (flat_map names l) -> get o' k = get o k) -> file o' l = file o l.
Proof. induction l as [|t l IH]; intro H; cbn [file]; [reflexivity|].
  rewrite IH by (intros k Hk; apply H, in_or_app; right; exact Hk).
  rewrite (written_same o o' t) by (intros k Hk; apply H, in_or_app; left; exact Hk). reflexivity. Qed.
Theorem C174_unused o o' s : build_smarts_file o = Ok s ->
  (forall k, In k (needed o) -> get o' k = get o k) -> build_smarts_file o' = Ok s.
Proof. intros H Hs. apply C174_file in H. destruct H as [Hf [Hg ->]].
  assert (Hp : present o' table = present o table).
  { unfold present. rewrite (filter_ext_in _ (fun e => holds o (fst e)) table); [reflexivity|].
    intros e He. exact (holds_same o o' Hs e He). }
  assert (N : forall e k, In e table -> holds o (fst e) = true -> In k (names (snd e)) -> get o' k = get o k)
    by (intros e k He Hh Hk; apply Hs; exact (needed_in o e k He Hh Hk)).
  apply C174_file. split; [|split].
  - unfold flags_ok, selects in *.
    rewrite (N (Always, line ["ISPR"] "2") "ISPR") by (try entry_in; try reflexivity; left; reflexivity).
    rewrite (N (Always, line ["IATMOS"] "3") "IATMOS") by (try entry_in; try reflexivity; left; reflexivity).
    rewrite (N (Always, line ["ITURB"] "9") "ITURB") by (try entry_in; try reflexivity; left; reflexivity).
    rewrite (N (Always, line ["IMASS"] "17") "IMASS") by (try entry_in; try reflexivity; left; reflexivity).
    rewrite (N (Always, line ["IPRT"] "12") "IPRT") by (try entry_in; try reflexivity; left; reflexivity).
    exact Hf.
  - intros k Hk. unfold needed in Hk. rewrite Hp in Hk. unfold given. rewrite (Hs k Hk). exact (Hg k Hk).
  - rewrite Hp. symmetry. apply file_same. exact Hs. Qed.

(** * Cases *)
(** The default options are enough, and give 31 cards. *)
Example ex_C174_default : flags_ok default_smarts
  /\ (forall k, In k (needed default_smarts) -> given default_smarts k)
  /\ length (present default_smarts table) = 31%nat.
Proof. split; [|split].
  - unfold flags_ok, selects. repeat apply conj.
    + exists 1%Z. split; [reflexivity|lia].
    + exists 1%Z. split; [reflexivity|lia].
    + exists 0%Z. split; [reflexivity|lia].
    + exists 3%Z. split; [reflexivity|lia].
    + discriminate.
  - intros k Hk. apply (proj1 (forallb_forall (fun k => match get default_smarts k with Some _ => true | None => false end)
      (needed default_smarts)) eq_refl k) in Hk. unfold given. destruct (get default_smarts k); [discriminate|discriminate Hk].
  - vm_compute. reflexivity. Qed.
(** A user-defined aerosol without its coefficients. *)
Example ex_C174_missing : flags_ok (put default_smarts "AEROS" (vt "USER"))
  /\ In "OMEGL" (needed (put default_smarts "AEROS" (vt "USER")))
  /\ ~ given (put default_smarts "AEROS" (vt "USER")) "OMEGL".
Proof. split; [|split].
  - unfold flags_ok, selects. repeat apply conj.
    + exists 1%Z. split; [reflexivity|lia].
    + exists 1%Z. split; [reflexivity|lia].
    + exists 0%Z. split; [reflexivity|lia].
    + exists 3%Z. split; [reflexivity|lia].
    + discriminate.
  - apply (needed_in _ (Text "AEROS" "USER", line ["ALPHA1"; "ALPHA2"; "OMEGL"; "GG"] "8a")); [entry_in|reflexivity|].
    cbn. tauto.
  - intro H. apply H. reflexivity. Qed.
(** A flag beyond the alternatives; one that is a decimal. *)
Example ex_C174_flags : build_smarts_file (put default_smarts "IMASS" (vi 5 "5")) = Err IndexError
  /\ build_smarts_file (put default_smarts "ISPR" (vf 1 "1.0")) = Err TypeError.
Proof. split; vm_compute; reflexivity. Qed.
(** With the tabulated ozone the ozone amount does not matter. *)
Example ex_C174_unused : exists s, build_smarts_file default_smarts = Ok s
  /\ build_smarts_file (put default_smarts "AbO3" (vf (3#10) "0.3")) = Ok s.
Proof. eexists. split; [apply C174_file; split; [exact (proj1 ex_C174_default)|
    split; [exact (proj1 (proj2 ex_C174_default))|reflexivity]]|].
  apply (C174_unused default_smarts).
  - apply C174_file; split; [exact (proj1 ex_C174_default)|
    split; [exact (proj1 (proj2 ex_C174_default))|reflexivity]].
  - intros k Hk. assert (Hb := proj1 (forallb_forall (fun k => negb (String.eqb k "AbO3")) (needed default_smarts)) eq_refl k Hk).
    apply negb_true_iff, String.eqb_neq in Hb.
    assert (G : forall (l : sdict) v, get (put l "AbO3" v) k = get l k).
    { induction l as [|[k' v'] l IH]; intro v; cbn [put get].
      - rewrite (proj2 (String.eqb_neq "AbO3" k) (not_eq_sym Hb)). reflexivity.
      - destruct (String.eqb_spec k' "AbO3") as [->|_]; cbn [get].
        + rewrite (proj2 (String.eqb_neq "AbO3" k) (not_eq_sym Hb)). reflexivity.
        + rewrite IH. reflexivity. }
    apply G. Qed.

(** * What the file does not guarantee *)
(** A negative flag is taken from the end: the file announces model -1 and has the card of
    model 2, instead of being refused. *)
Theorem C174_negative_refuted : exists o s, integer (get o "ISPR") = Some (-1)%Z
  /\ build_smarts_file o = Ok s /\ In (line ["LATIT"; "ALTIT"; "HEIGHT"] "2a") (present o table).
Proof. exists (put default_smarts "ISPR" (vi (-1) "-1")).
  destruct (build_smarts_file (put default_smarts "ISPR" (vi (-1) "-1"))) as [s|e] eqn:E.
  - exists s. split; [reflexivity|]. split; [reflexivity|]. unfold present. apply in_map_iff.
    exists (Sel "ISPR" 3 2, line ["LATIT"; "ALTIT"; "HEIGHT"] "2a"). split; [reflexivity|].
    apply filter_In. split; [entry_in|reflexivity].
  - exfalso. vm_compute in E. discriminate E. Qed.
(** The albedo of the ground next to a tilted surface: with the flag -1, for which the albedo of
    the far ground is written (card 10a), it is not (card 10d needs the flag 1). *)
Theorem C174_albedo_refuted : exists o s,
  integer (get o "IALBDX") = Some (-1)%Z /\ integer (get o "IALBDG") = Some (-1)%Z
  /\ integer (get o "ITILT") = Some 1%Z /\ given o "RHOX" /\ given o "RHOG"
  /\ build_smarts_file o = Ok s
  /\ In (line ["RHOX"] "10a") (present o table) /\ ~ In (line ["RHOG"] "10d") (present o table).
Proof. pose (o := put (put (put (put default_smarts "IALBDX" (vi (-1) "-1")) "IALBDG" (vi (-1) "-1"))
    "RHOX" (vf (1#5) "0.2")) "RHOG" (vf (1#4) "0.25")).
  exists o. destruct (build_smarts_file o) as [s|e] eqn:E; [|exfalso; vm_compute in E; discriminate E].
  exists s. split; [reflexivity|]. split; [reflexivity|]. split; [reflexivity|]. split; [discriminate|]. split; [discriminate|].
  split; [reflexivity|]. split.
  - unfold present. apply in_map_iff. exists (Is "IALBDX" (-1), line ["RHOX"] "10a"). split; [reflexivity|].
    apply filter_In. split; [entry_in|reflexivity].
  - intro H. assert (Hb : existsb (fun t => match t with F "RHOG" :: _ => true | _ => false end) (present o table) = true).
    { apply existsb_exists. eexists. split; [exact H|reflexivity]. }
    vm_compute in Hb. discriminate Hb. Qed.

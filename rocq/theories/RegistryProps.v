(** Property C16: registries. *)
From stdpp Require Import gmap strings list.
From Verif Require Import Common RegistryModel.

(** * C16 *)

(** Asking for a name that is taken, without the overwrite flag, raises
    ValueError and changes no registry. *)
Theorem C16_duplicate_rejected :
  forall r i name excluded f g,
    reg r i !! name = Some g ->
    decorate r i name false excluded f = (r, Some ValueError).
Proof. intros r i name ex f g H. unfold decorate, obtain. by rewrite H. Qed.
Print Assumptions C16_duplicate_rejected.

(** A step of any kind changes at most one entry of one registry: the one named
    by the decorator that is applied. *)
Lemma rstep_change r x j name :
  reg (fst (rstep r x)) j !! name <> reg r j !! name ->
  exists n f t, x = Apply n f /\ tokens r !! n = Some t /\ p_reg t = j /\ p_name t = name /\
    p_excluded t = false /\ reg (fst (rstep r x)) j !! name = Some f.
Proof.
  destruct x as [i n o e|n f]; simpl.
  - unfold obtain. destruct (reg r i !! n); [destruct o|]; done.
  - unfold apply_token. destruct (tokens r !! n) as [t|] eqn:E; [|done].
    destruct (p_excluded t) eqn:Ee; [done|]. unfold store; simpl.
    destruct (decide (j = p_reg t)) as [->|]; [|done].
    destruct (decide (name = p_name t)) as [->|].
    + intros _. exists n, f, t. rewrite lookup_insert. done.
    + by rewrite lookup_insert_ne.
Qed.

(** Over any history, in every interleaving: registries other than the named
    one do not change, and an excluded decorator never stores nor removes
    anything; entries never disappear. *)
Theorem C16_isolated_and_excluded :
  forall r h j name,
    (forall i n o e, Obtain i n o e ∈ h -> i = j -> n = name -> e = true) ->
    (forall t, t ∈ tokens r -> p_reg t = j -> p_name t = name -> p_excluded t = true) ->
    reg (rrun r h) j !! name = reg r j !! name.
Proof.
  intros r h j name. revert r. induction h as [|x h IH]; intros r Ho Ht; [done|].
  unfold rrun in *. simpl. rewrite IH.
  - destruct (decide (reg (fst (rstep r x)) j !! name = reg r j !! name)) as [|Hne]; [done|].
    destruct (rstep_change _ _ _ _ Hne) as (n & f & t & -> & H1 & H2 & H3 & H4 & _).
    exfalso. rewrite (Ht t) in H4; [done| |done|done].
    by eapply elem_of_list_lookup_2.
  - intros i n o e Hin. eapply Ho. right. exact Hin.
  - intros t Hin H1 H2. destruct x as [i n o e|n f]; simpl in Hin.
    + unfold obtain in Hin. destruct (reg r i !! n); [destruct o|]; simpl in Hin.
      * apply elem_of_app in Hin as [Hin|Hin]; [by apply Ht|].
        apply elem_of_list_singleton in Hin. subst t. simpl in *.
        eapply Ho; [left|done|done].
      * by apply Ht.
      * apply elem_of_app in Hin as [Hin|Hin]; [by apply Ht|].
        apply elem_of_list_singleton in Hin. subst t. simpl in *.
        eapply Ho; [left|done|done].
    + apply Ht; [|done|done]. revert Hin. unfold apply_token.
      destruct (tokens r !! n) as [t'|]; [|done]. by destruct (p_excluded t').
Qed.
Print Assumptions C16_isolated_and_excluded.

Theorem C16_entries_never_disappear :
  forall r h j name f, reg r j !! name = Some f -> is_Some (reg (rrun r h) j !! name).
Proof.
  intros r h j name f. revert r f. induction h as [|x h IH]; intros r f H; [eauto|].
  unfold rrun in *. simpl.
  destruct (decide (reg (fst (rstep r x)) j !! name = reg r j !! name)) as [He|Hne].
  - eapply IH. rewrite He. exact H.
  - destruct (rstep_change _ _ _ _ Hne) as (n & f' & t & -> & H1 & H2 & H3 & H4 & H5).
    eapply IH. exact H5.
Qed.
Print Assumptions C16_entries_never_disappear.

(** Used as a decorator (obtained and applied at once), a name registered with
    some function keeps that function as long as nobody passes the overwrite
    flag for it.  Missing for the full property: decorators obtained early and
    applied later (refuted below). *)
Lemma decorate_other r d j name f :
  reg r j !! name = Some f ->
  (d_reg d = j -> d_name d = name -> d_over d = false) ->
  reg (fst (decorate r (d_reg d) (d_name d) (d_over d) (d_excl d) (d_fun d))) j !! name = Some f.
Proof.
  intros H Hov. unfold decorate.
  destruct (obtain r (d_reg d) (d_name d) (d_over d) (d_excl d)) as [r' e] eqn:E.
  assert (Hr' : reg r' j !! name = Some f).
  { unfold obtain in E. destruct (reg r (d_reg d) !! d_name d); [destruct (d_over d)|]; by simplify_eq. }
  destruct e; [done|].
  destruct (decide (reg (fst (rstep r' (Apply (length (tokens r)) (d_fun d)))) j !! name = reg r' j !! name))
    as [He|Hne]; [simpl in He; simpl; by rewrite He|].
  destruct (rstep_change _ _ _ _ Hne) as (n & f' & t & Hx & H1 & H2 & H3 & H4 & H5).
  exfalso. simplify_eq.
  assert (Ht : tokens r' = tokens r ++ [mkPending (d_reg d) (d_name d) (d_excl d)]).
  { unfold obtain in E. destruct (reg r (d_reg d) !! d_name d); [destruct (d_over d)|]; by simplify_eq. }
  rewrite Ht, list_lookup_middle in H1 by done. simplify_eq. simpl in *.
  rewrite Hov in E by done. unfold obtain in E. rewrite H in E. done.
Qed.

Theorem C16_no_silent_replacement_partial :
  forall r h j name f,
    reg r j !! name = Some f ->
    (forall d, d ∈ h -> d_reg d = j -> d_name d = name -> d_over d = false) ->
    reg (drun r h) j !! name = Some f.
Proof.
  intros r h j name f. revert r. induction h as [|d h IH]; intros r H Hov; [done|].
  unfold drun in *. simpl. apply IH.
  - apply decorate_other; [done|]. apply Hov. left.
  - intros d' Hd'. apply Hov. by right.
Qed.
Print Assumptions C16_no_silent_replacement_partial.

(** An unused name, decorated without exclusion, is stored; and only then. *)
Theorem C16_registration_stores :
  forall r i name overwrite f,
    reg r i !! name = None \/ overwrite = true ->
    reg (fst (decorate r i name overwrite false f)) i !! name = Some f /\
    snd (decorate r i name overwrite false f) = None /\
    (forall j n, (j, n) <> (i, name) ->
       reg (fst (decorate r i name overwrite false f)) j !! n = reg r j !! n).
Proof.
  intros r i name overwrite f H. unfold decorate.
  assert (Ho : obtain r i name overwrite false
          = (mkRegs (reg r) (tokens r ++ [mkPending i name false]), None)).
  { unfold obtain. destruct H as [->| ->]; [done|]. by destruct (reg r i !! name). }
  rewrite Ho. simpl. unfold apply_token. simpl. rewrite list_lookup_middle by done. simpl.
  rewrite decide_True by done. rewrite lookup_insert. split; [done|]. split; [done|].
  intros j n Hne. destruct (decide (j = i)) as [->|]; [|done].
  rewrite lookup_insert_ne; [done|]. congruence.
Qed.
Print Assumptions C16_registration_stores.

Definition empty_regs : regs := mkRegs (fun _ => ∅) [].
Example C16_case :
  let r := drun empty_regs [mkDeco ACTIONS "iv" false false 1; mkDeco OPTICS "BL" false false 2] in
  reg r ACTIONS !! "iv" = Some 1 /\
  (forall d, d ∈ [mkDeco ACTIONS "iv" false false 7; mkDeco ACTIONS "qe" true false 3;
                  mkDeco OPTICS "iv" true false 9] ->
     d_reg d = ACTIONS -> d_name d = "iv" -> d_over d = false) /\
  reg (drun r [mkDeco ACTIONS "iv" false false 7; mkDeco OPTICS "iv" true false 9]) ACTIONS !! "iv" = Some 1.
Proof.
  split; [reflexivity|]. split; [|reflexivity].
  intros d Hd. repeat (apply elem_of_cons in Hd as [->|Hd]; [done|]). by apply elem_of_nil in Hd.
Qed.

(** The full property fails: the name is checked when the decorator is obtained,
    but stored when it is applied.  Two decorators for the same new name, both
    obtained without overwrite, silently replace each other's function, and no
    exception is raised in the whole history. *)
Theorem C16_no_silent_replacement_refuted :
  exists h1 x i name f g,
    let r1 := rrun empty_regs h1 in
    reg r1 i !! name = Some f /\
    (forall k n o e, Obtain k n o e ∈ h1 ++ [x] -> o = false) /\
    snd (rstep r1 x) = None /\
    reg (fst (rstep r1 x)) i !! name = Some g /\ g <> f.
Proof.
  exists [Obtain ACTIONS "mine" false false; Obtain ACTIONS "mine" false false; Apply 0 10],
    (Apply 1 20), ACTIONS, "mine", 10, 20.
  split; [reflexivity|]. split; [|split; [reflexivity|split; [reflexivity|lia]]].
  intros k n o e H. simpl in H.
  repeat (apply elem_of_cons in H as [H|H]; [by simplify_eq|]). by apply elem_of_nil in H.
Qed.
Print Assumptions C16_no_silent_replacement_refuted.

(** C176: singletons have one instance, and their tagged methods are functions of a namespace. *)
From Coq Require Import String List Arith Bool Lia.
From Verif Require Import Common SingletonModel.
From Coq Require Import List.
Import ListNotations.
Open Scope string_scope.
Open Scope list_scope.

Section Singleton.
Context {A O V W : Type}.
Context (construct : nat -> A -> W -> res O * W) (method : nat -> O -> A -> W -> res V * W) (no_args : A).
Notation call := (call construct).
Notation redirected := (redirected construct method no_args).
Notation step := (step construct method no_args).
Notation run := (run construct method no_args).
Notation sstate := (@sstate O W).

(** [s] has the instance [i] of the class. *)
Definition has (s : sstate) (cls : nat) (i : O) : Prop := instance (s_inst s) cls = Some i.
Lemma instance_app (l : list (nat * O)) c k i :
  instance (l ++ [(k, i)]) c = match instance l c with Some j => Some j | None => if Nat.eqb k c then Some i else None end.
Proof. induction l as [|[a b] l IH]; cbn [app instance]; [reflexivity|]. destruct (Nat.eqb a c); [reflexivity|exact IH]. Qed.
Lemma call_has s c a c' i : has s c' i -> has (snd (call c a s)) c' i.
Proof. unfold has, SingletonModel.call. intro H. destruct (instance (s_inst s) c) eqn:E; [exact H|].
  destruct (construct c a (s_world s)) as [[j|e] w]; cbn [snd s_inst]; [|exact H].
  rewrite instance_app, H. reflexivity. Qed.
Lemma redirected_inst r a s : s_inst (snd (redirected r a s)) = s_inst (snd (call (r_class r) no_args s)).
Proof. unfold SingletonModel.redirected. destruct (call (r_class r) no_args s) as [[i|e] s']; [|reflexivity].
  destruct (method (r_function r) i a (s_world s')) as [v w]. reflexivity. Qed.
Lemma step_has u s c i : has s c i -> has (snd (step u s)) c i.
Proof. destruct u as [c' a|r a]; intro H; unfold SingletonModel.step.
  - assert (G := call_has s c' a c i H). destruct (call c' a s) as [x s']. exact G.
  - assert (G := call_has s (r_class r) no_args c i H). unfold has in *. rewrite <- (redirected_inst r a s) in G.
    destruct (redirected r a s) as [x s']. exact G. Qed.
Lemma run_has l s c i : has s c i -> has (snd (run l s)) c i.
Proof. revert s. induction l as [|u l IH]; intros s H; [exact H|]. cbn [SingletonModel.run].
  assert (G := step_has u s c i H). destruct (step u s) as [x s']. cbn [snd] in G. specialize (IH s' G).
  destruct (run l s') as [xs s'']. exact IH. Qed.
Lemma call_ok c a s i s' : call c a s = (Ok i, s') -> has s' c i.
Proof. unfold SingletonModel.call, has. destruct (instance (s_inst s) c) eqn:E.
  - intro H. inversion H; subst. exact E.
  - destruct (construct c a (s_world s)) as [[j|e] w]; intro H; inversion H; subst.
    cbn [s_inst]. rewrite instance_app, E, Nat.eqb_refl. reflexivity. Qed.

(** Once a class has been called with success, every later call of it, with whatever arguments
    and after whatever program, returns that instance and changes nothing. *)
Theorem C176_one c a b s i s1 l : call c a s = (Ok i, s1) ->
  call c b (snd (run l s1)) = (Ok i, snd (run l s1)).
Proof. intro H. assert (G := run_has l s1 c i (call_ok c a s i s1 H)). unfold SingletonModel.call.
  unfold has in G. rewrite G. reflexivity. Qed.
(** The first call makes the instance with its arguments; one that fails leaves none, and the next
    one tries again. *)
Theorem C176_first c a s : instance (s_inst s) c = None ->
  fst (call c a s) = fst (construct c a (s_world s)) /\ s_world (snd (call c a s)) = snd (construct c a (s_world s))
  /\ (forall c', c' <> c -> instance (s_inst (snd (call c a s))) c' = instance (s_inst s) c')
  /\ (forall e, fst (call c a s) = Err e -> s_inst (snd (call c a s)) = s_inst s).
Proof. intro H. unfold SingletonModel.call. rewrite H. destruct (construct c a (s_world s)) as [[i|e] w]; cbn [fst snd s_world s_inst].
  - repeat split; [|intros e He; discriminate He]. intros c' Hc. rewrite instance_app.
    destruct (instance (s_inst s) c'); [reflexivity|]. destruct (Nat.eqb_spec c c'); [congruence|reflexivity].
  - repeat split. Qed.
(** No class ever has two instances. *)
Definition single (s : sstate) : Prop := NoDup (map fst (s_inst s)).
Lemma instance_none (l : list (nat * O)) c : instance l c = None -> ~ In c (map fst l).
Proof. induction l as [|[k i] l IH]; cbn [instance map fst In]; [intros _ H; destruct H|].
  destruct (Nat.eqb_spec k c) as [->|Hn]; [intro H; discriminate H|]. intros H [Hc|Hc]; [contradiction|exact (IH H Hc)]. Qed.
Lemma call_single c a s : single s -> single (snd (call c a s)).
Proof. unfold single, SingletonModel.call. intro H. destruct (instance (s_inst s) c) eqn:E; [exact H|].
  destruct (construct c a (s_world s)) as [[i|e] w]; cbn [snd s_inst]; [|exact H].
  rewrite map_app. cbn [map fst]. apply NoDup_rev in H. rewrite <- (rev_involutive (_ ++ _)). apply NoDup_rev.
  rewrite rev_app_distr. constructor; [rewrite <- in_rev; apply instance_none; exact E|exact H]. Qed.
Theorem C176_single l s : single s -> single (snd (run l s)).
Proof. revert s. induction l as [|u l IH]; intros s H; [exact H|]. cbn [SingletonModel.run].
  assert (G : single (snd (step u s))).
  { destruct u as [c a|r a]; unfold SingletonModel.step.
    - assert (G := call_single c a s H). destruct (call c a s). exact G.
    - assert (G := call_single (r_class r) no_args s H). unfold single in *. rewrite <- (redirected_inst r a s) in G.
      destruct (redirected r a s). exact G. }
  destruct (step u s) as [x s']. specialize (IH s' G). destruct (run l s') as [xs s'']. exact IH. Qed.
(** A redirected function is the method on the one instance, which is made if need be. *)
Theorem C176_redirect r a s :
  (forall i, has s (r_class r) i -> fst (redirected r a s) = fst (method (r_function r) i a (s_world s))
             /\ s_inst (snd (redirected r a s)) = s_inst s
             /\ s_world (snd (redirected r a s)) = snd (method (r_function r) i a (s_world s)))
  /\ (forall i w, instance (s_inst s) (r_class r) = None -> construct (r_class r) no_args (s_world s) = (Ok i, w) ->
      has (snd (redirected r a s)) (r_class r) i /\ fst (redirected r a s) = fst (method (r_function r) i a w))
  /\ (forall e w, instance (s_inst s) (r_class r) = None -> construct (r_class r) no_args (s_world s) = (Err e, w) ->
      redirected r a s = (Err e, St (s_inst s) w)).
Proof. unfold SingletonModel.redirected, SingletonModel.call, has. split; [|split].
  - intros i H. rewrite H. destruct (method (r_function r) i a (s_world s)) as [v w]. repeat split.
  - intros i w H Hc. rewrite H, Hc. cbn [s_world s_inst].
    destruct (method (r_function r) i a w) as [v w']. cbn [fst snd s_inst].
    rewrite instance_app, H, Nat.eqb_refl. split; reflexivity.
  - intros e w H Hc. rewrite H, Hc. reflexivity. Qed.
End Singleton.

(** * The namespace *)
Fixpoint named (ns : list (string * redirect)) (k : string) : option redirect :=
  match ns with [] => None | (k', r) :: l => if String.eqb k' k then Some r else named l k end.
Lemma named_set ns k r k' : named (set_name ns k r) k' = if String.eqb k k' then Some r else named ns k'.
Proof. induction ns as [|[a x] ns IH]; cbn [set_name named]; [reflexivity|].
  destruct (String.eqb_spec a k) as [->|Hn]; cbn [named].
  - destruct (String.eqb k k'); reflexivity.
  - rewrite IH. destruct (String.eqb_spec a k') as [->|Hn']; [|reflexivity].
    destruct (String.eqb_spec k k') as [->|_]; [contradiction|reflexivity]. Qed.
(** Names of the class, for distinct functions: those of tagged functions are functions of the
    namespace, everything else there is as before, and the tags of the class are gone. *)
Theorem C176_namespace_partial cls dict ns t : NoDup (map fst dict) -> NoDup (map snd dict) ->
  let (ns', t') := breakout_functions cls dict ns t in
  (forall k f, In (k, f) dict -> t f = true -> named ns' k = Some (Redirect cls f))
  /\ (forall k, (forall f, In (k, f) dict -> t f = false) -> named ns' k = named ns k)
  /\ (forall f, t' f = t f && negb (existsb (Nat.eqb f) (map snd dict))).
Proof. revert ns t. induction dict as [|[n g] dict IH]; intros ns t Hk Hf.
  - cbn. split; [intros k f H; destruct H|]. split; [reflexivity|]. intro f. rewrite andb_true_r. reflexivity.
  - cbn [map fst snd] in Hk, Hf. inversion Hk as [|? ? Hk1 Hk2]; subst. inversion Hf as [|? ? Hf1 Hf2]; subst.
    cbn [breakout_functions].
    assert (Hnk : forall f, In (n, f) dict -> False) by (intros f H; apply Hk1, in_map_iff; exists (n, f); split; [reflexivity|exact H]).
    assert (Hng : forall k, In (k, g) dict -> False) by (intros k H; apply Hf1, in_map_iff; exists (k, g); split; [reflexivity|exact H]).
    destruct (t g) eqn:Et.
    + specialize (IH (set_name ns n (Redirect cls g)) (untag g t) Hk2 Hf2).
      destruct (breakout_functions cls dict _ _) as [ns' t']. destruct IH as [I1 [I2 I3]]. split; [|split].
      * intros k f [H|H] Ht.
        -- inversion H; subst. rewrite I2, named_set, String.eqb_refl; [reflexivity|]. intros f' H'. exfalso. exact (Hnk f' H').
        -- apply (I1 k f H). unfold untag. destruct (Nat.eqb_spec f g) as [->|_]; [exfalso; exact (Hng k H)|exact Ht].
      * intros k H. rewrite I2, named_set.
        -- destruct (String.eqb_spec n k) as [->|_]; [|reflexivity].
           rewrite (H g (or_introl eq_refl)) in Et. discriminate Et.
        -- intros f Hi. unfold untag. destruct (Nat.eqb f g); [reflexivity|]. apply H. right; exact Hi.
      * intro f. rewrite I3. unfold untag. cbn [map snd existsb].
        destruct (Nat.eqb f g); cbn [andb orb negb]; [rewrite andb_false_r|]; reflexivity.
    + specialize (IH ns t Hk2 Hf2). destruct (breakout_functions cls dict ns t) as [ns' t']. destruct IH as [I1 [I2 I3]].
      split; [|split].
      * intros k f [H|H] Ht; [inversion H; subst; congruence|exact (I1 k f H Ht)].
      * intros k H. apply I2. intros f Hi. apply H. right; exact Hi.
      * intro f. rewrite I3. cbn [map snd existsb]. destruct (Nat.eqb_spec f g) as [->|_]; [|reflexivity].
        rewrite Et. reflexivity. Qed.
(** Exactly the functions decorated with [breakout], in whatever order, are given away. *)
Lemma tagged fs : forall t g, fold_left (fun t f => breakout f t) fs t g = true <-> In g fs \/ t g = true.
Proof. induction fs as [|f fs IH]; intros t g; cbn [fold_left In]; [tauto|]. rewrite IH. unfold breakout.
  destruct (Nat.eqb_spec g f) as [->|N]; [tauto|]. split; [intros [H|H]; auto|intros [[H|H]|H]; auto; congruence]. Qed.
Theorem C176_tagged_partial cls dict ns fs : NoDup (map fst dict) -> NoDup (map snd dict) ->
  let (ns', _) := breakout_functions cls dict ns (fold_left (fun t f => breakout f t) fs (fun _ => false)) in
  (forall k f, In (k, f) dict -> In f fs -> named ns' k = Some (Redirect cls f))
  /\ (forall k, (forall f, In (k, f) dict -> ~ In f fs) -> named ns' k = named ns k).
Proof. intros H1 H2. assert (G := C176_namespace_partial cls dict ns (fold_left (fun t f => breakout f t) fs (fun _ => false)) H1 H2).
  destruct (breakout_functions _ _ _ _) as [ns' t']. destruct G as (G1 & G2 & _). split.
  - intros k f Hi Hf. apply G1; [exact Hi|]. apply tagged. now left.
  - intros k Hk. apply G2. intros f Hi. apply not_true_is_false. intros E. apply tagged in E.
    destruct E as [E|E]; [exact (Hk f Hi E)|discriminate E]. Qed.
Example ex_C176_tagged : let (ns', _) := breakout_functions 0 [("get", 1%nat); ("put", 2%nat); ("hide", 3%nat)] [] (breakout 2 (breakout 1 (fun _ => false))) in
  map fst ns' = ["get"; "put"].
Proof. reflexivity. Qed.
(** A function that a class has under two names is given away under the first one only. *)
Theorem C176_alias_refuted : exists cls dict t f k, In (k, f) dict /\ t f = true
  /\ named (fst (breakout_functions cls dict [] t)) k = None.
Proof. exists 0%nat, [("get", 1%nat); ("lookup", 1%nat)], (breakout 1 (fun _ => false)), 1%nat, "lookup".
  split; [right; left; reflexivity|]. split; reflexivity. Qed.

(** * A case: counting constructions *)
Definition counted (c a w : nat) : res nat * nat := if Nat.eqb a 0 then (Err ValueError, S w) else (Ok (10 * c + a), S w).
Definition adding (f i a w : nat) : res nat * nat := (Ok (f + i + a), w).
Example ex_C176_one : call counted 1 5 (St [] 0%nat) = (Ok 15, St [(1, 15)] 1%nat)
  /\ fst (call counted 1 7 (snd (run counted adding 3 [Make 2 4; Use (Redirect 1 100) 6; Make 1 0] (St [(1, 15)] 1%nat)))) = Ok 15.
Proof. split; reflexivity. Qed.
Example ex_C176_first : fst (run counted adding 3 [Make 1 0; Make 1 2; Make 1 9] (St [] 0%nat))
  = [Made (Err ValueError); Made (Ok 12); Made (Ok 12)].
Proof. reflexivity. Qed.
Example ex_C176_single : single (@St nat nat [] 0%nat)
  /\ s_inst (snd (run counted adding 3 [Make 1 2; Use (Redirect 2 7) 1; Make 1 4; Make 2 5] (St [] 0%nat))) = [(1, 12); (2, 23)].
Proof. split; [constructor|reflexivity]. Qed.
Example ex_C176_redirect : redirected counted adding 3 (Redirect 4 100) 2 (St [] 0%nat) = (Ok 145, St [(4, 43)] 1%nat).
Proof. reflexivity. Qed.
Example ex_C176_namespace :
  let t := breakout 3 (breakout 1 (fun _ => false)) in
  NoDup (map fst [("a", 1); ("b", 2); ("c", 3)]%nat) /\ NoDup (map snd [("a", 1); ("b", 2); ("c", 3)]%nat)
  /\ fst (breakout_functions 9 [("a", 1); ("b", 2); ("c", 3)]%nat [] t) = [("a", Redirect 9 1); ("c", Redirect 9 3)].
Proof. split; [|split; [|reflexivity]].
  - repeat constructor; cbn; intro H; repeat destruct H as [H|H]; try discriminate H; try destruct H.
  - repeat constructor; cbn; intro H; repeat destruct H as [H|H]; try discriminate H; try destruct H. Qed.

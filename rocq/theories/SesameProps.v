(** Properties C67, C113, C115: the voltages of the Sesame driver. *)
From Coq Require Import Reals ZArith String List Arith Bool Lia Lra Psatz Permutation Sorted.
From Verif Require Import Common NumModel InterpModel InterpProps NpModel PhysConst SesameModel.
Import ListNotations.
Open Scope R_scope.
Open Scope list_scope.

(** * argsort *)
Definition srt (l : list R) := fold_right insert_key [] (combine l (seq 0 (length l))).
Lemma insert_key_perm a l : Permutation (a :: l) (insert_key a l).
Proof.
  induction l as [|x l IH]; [apply Permutation_refl|]. cbn [insert_key]. destruct (Rle_dec _ _); [apply Permutation_refl|].
  eapply perm_trans; [apply perm_swap|]. apply perm_skip, IH.
Qed.
Lemma keys_perm l : Permutation l (fold_right insert_key [] l).
Proof.
  induction l as [|x l IH]; [constructor|]. cbn [fold_right]. eapply perm_trans; [apply perm_skip, IH|apply insert_key_perm].
Qed.
Lemma insert_key_sorted a l : StronglySorted Rle (map fst l) -> StronglySorted Rle (map fst (insert_key a l)).
Proof.
  induction l as [|x l IH]; intros H; cbn [insert_key].
  - repeat constructor.
  - cbn [map] in H. inversion H as [|? ? H1 H2]; subst. destruct (Rle_dec _ _) as [L|L].
    + cbn [map]. constructor; [assumption|]. constructor; [assumption|]. eapply Forall_impl; [|exact H2]. intros b B. simpl in B. lra.
    + cbn [map]. constructor; [auto|]. apply Forall_forall. intros b B.
      apply (Permutation_in _ (Permutation_sym (Permutation_map fst (insert_key_perm a l)))) in B. destruct B as [<-|B]; [lra|].
      rewrite Forall_forall in H2. auto.
Qed.
Lemma srt_sorted l : StronglySorted Rle (map fst (srt l)).
Proof. unfold srt. generalize (combine l (seq 0 (length l))). induction l0; [constructor|]. apply insert_key_sorted. assumption. Qed.
Lemma srt_perm l : Permutation (combine l (seq 0 (length l))) (srt l).
Proof. apply keys_perm. Qed.
Lemma combine_seq_nth (l : list R) s v i : In (v, i) (combine l (seq s (length l))) -> (s <= i < s + length l)%nat /\ nth (i - s) l 0 = v.
Proof.
  revert s. induction l as [|x l IH]; intros s H; [destruct H|]. cbn [length seq combine] in H. destruct H as [E|H].
  - injection E as <- <-. cbn [length]. rewrite Nat.sub_diag. split; [lia|reflexivity].
  - destruct (IH (S s) H) as [B E]. cbn [length]. split; [lia|]. replace (i - s)%nat with (S (i - S s)) by lia. exact E.
Qed.
Lemma map_fst_combine {A B} (l : list A) (m : list B) : length l = length m -> map fst (combine l m) = l.
Proof. revert m. induction l as [|x l IH]; intros [|y m] H; try discriminate; [reflexivity|]. cbn. f_equal. apply IH. injection H as H. exact H. Qed.
Lemma map_snd_combine {A B} (l : list A) (m : list B) : length l = length m -> map snd (combine l m) = m.
Proof. revert m. induction l as [|x l IH]; intros [|y m] H; try discriminate; [reflexivity|]. cbn. f_equal. apply IH. injection H as H. exact H. Qed.
Lemma take_argsort l : take 0 l (argsort l) = map fst (srt l).
Proof.
  unfold take, argsort. fold (srt l). rewrite map_map. apply map_ext_in. intros [v i] H.
  apply (Permutation_in _ (Permutation_sym (srt_perm l))) in H. apply combine_seq_nth in H. destruct H as [_ H].
  rewrite Nat.sub_0_r in H. exact H.
Qed.
Lemma argsort_perm l : Permutation (seq 0 (length l)) (argsort l).
Proof.
  unfold argsort. fold (srt l). rewrite <- (Permutation_map snd (srt_perm l)). rewrite map_snd_combine; [apply Permutation_refl|].
  rewrite seq_length. reflexivity.
Qed.
Lemma sort_perm l : Permutation l (take 0 l (argsort l)).
Proof.
  rewrite take_argsort. rewrite <- (Permutation_map fst (srt_perm l)). rewrite map_fst_combine; [apply Permutation_refl|].
  rewrite seq_length. reflexivity.
Qed.
Lemma sort_sorted l : StronglySorted Rle (take 0 l (argsort l)).
Proof. rewrite take_argsort. apply srt_sorted. Qed.
Lemma take_rev {A} (d : A) l o : take d l (rev o) = rev (take d l o).
Proof. apply map_rev. Qed.
Lemma sort_unique_rev l : take 0 l (rev (argsort l)) = rev (take 0 l (argsort l)).
Proof. apply take_rev. Qed.

Lemma sorted_increasing l : StronglySorted Rle l -> NoDup l -> increasing l.
Proof.
  induction l as [|x l IH]; intros S N i j H; [cbn [length] in H; lia|].
  inversion S as [|? ? S1 S2]; subst. inversion N as [|? ? N1 N2]; subst. rewrite Forall_forall in S2.
  destruct j as [|j]; [lia|]. destruct i as [|i].
  - cbn [nth]. assert (I : In (nth j l 0) l) by (apply nth_In; cbn [length] in H; lia).
    specialize (S2 _ I). destruct (Req_dec x (nth j l 0)) as [E|E]; [|lra]. rewrite <- E in I. contradiction.
  - cbn [nth]. apply IH; auto. cbn [length] in H. lia.
Qed.

(** * Aligned arrays *)
Section Aligned.
Context {Row : Type} (row0 : Row) (good : R -> option R -> Row -> Prop).

(** Entry [i] of the currents and of the rows belongs to voltage [i]. *)
Definition aligned (vs : list R) (js : list (option R)) (rs : list Row) : Prop :=
  length js = length vs /\ length rs = length vs /\
  forall i, (i < length vs)%nat -> good (nth i vs 0) (nth i js None) (nth i rs row0).

Lemma aligned_rev vs js rs : aligned vs js rs -> aligned (rev vs) (rev js) (rev rs).
Proof.
  intros (A & B & C). split; [rewrite !rev_length; assumption|]. split; [rewrite !rev_length; assumption|].
  intros i Hi. rewrite rev_length in Hi. rewrite !rev_nth by lia. rewrite A, B. apply C. lia.
Qed.
Lemma aligned_app vs js rs vs' js' rs' : aligned vs js rs -> aligned vs' js' rs' -> aligned (vs ++ vs') (js ++ js') (rs ++ rs').
Proof.
  intros (A & B & C) (A' & B' & C'). split; [rewrite !app_length; lia|]. split; [rewrite !app_length; lia|].
  intros i Hi. rewrite app_length in Hi. destruct (Nat.lt_ge_cases i (length vs)) as [L|L].
  - rewrite !app_nth1 by lia. auto.
  - rewrite !app_nth2 by lia. rewrite A, B. apply C'. lia.
Qed.
Lemma removelast_length {A} (l : list A) : length (removelast l) = (length l - 1)%nat.
Proof. rewrite removelast_firstn_len, firstn_length. lia. Qed.
Lemma removelast_nth {A} (l : list A) i d : (i < length l - 1)%nat -> nth i (removelast l) d = nth i l d.
Proof.
  intros H. rewrite <- (firstn_skipn (length l - 1) l) at 2. rewrite removelast_firstn_len.
  replace (Init.Nat.pred (length l)) with (length l - 1)%nat by lia. rewrite app_nth1; [reflexivity|].
  rewrite firstn_length. lia.
Qed.
Lemma aligned_removelast vs js rs : aligned vs js rs -> aligned (removelast vs) (removelast js) (removelast rs).
Proof.
  intros (A & B & C). split; [rewrite !removelast_length; lia|]. split; [rewrite !removelast_length; lia|].
  intros i Hi. rewrite removelast_length in Hi. rewrite !removelast_nth by lia. apply C. lia.
Qed.
Lemma aligned_take vs js rs o : aligned vs js rs -> Forall (fun i => (i < length vs)%nat) o ->
  aligned (take 0 vs o) (take None js o) (take row0 rs o).
Proof.
  intros (A & B & C) F. unfold take. split; [rewrite !map_length; reflexivity|]. split; [rewrite !map_length; reflexivity|].
  intros i Hi. rewrite map_length in Hi.
  rewrite (nth_indep _ 0 (nth 0 vs 0)) by (rewrite map_length; lia). rewrite (map_nth (fun k => nth k vs 0)).
  rewrite (nth_indep _ None (nth 0 js None)) by (rewrite map_length; lia). rewrite (map_nth (fun k => nth k js None)).
  rewrite (nth_indep _ row0 (nth 0 rs row0)) by (rewrite map_length; lia). rewrite (map_nth (fun k => nth k rs row0)).
  apply C. rewrite Forall_forall in F. apply F. apply nth_In. lia.
Qed.
End Aligned.

Lemma aligned_opp {Row} (row0 : Row) good vs js rs : aligned row0 good vs js rs ->
  aligned row0 (fun v => good (- v)) (map Ropp vs) js rs.
Proof.
  intros (A & B & C). split; [rewrite map_length; assumption|]. split; [rewrite map_length; assumption|].
  intros i Hi. rewrite map_length in Hi. rewrite (nth_indep _ 0 (- 0)) by (rewrite map_length; lia).
  rewrite map_nth, Ropp_involutive. auto.
Qed.

(** * The sweep *)
Lemma ltb0_iff x : ltb0 x = true <-> x < 0. Proof. unfold ltb0. destruct (Rlt_dec _ _); split; intros; (assumption || reflexivity || discriminate || lra). Qed.
Lemma gtb0_iff x : gtb0 x = true <-> 0 < x. Proof. unfold gtb0. destruct (Rlt_dec _ _); split; intros; (assumption || reflexivity || discriminate || lra). Qed.
Lemma eqb0_iff x : eqb0 x = true <-> x = 0. Proof. unfold eqb0. destruct (Req_EM_T _ _); split; intros; (assumption || reflexivity || discriminate || lra). Qed.
Lemma le_b_iff x y : le_b x y = true <-> x <= y. Proof. unfold le_b. destruct (Rle_dec _ _); split; intros; (assumption || reflexivity || discriminate || lra). Qed.
Lemma lt_b_iff x y : lt_b x y = true <-> x < y. Proof. unfold lt_b. destruct (Rlt_dec _ _); split; intros; (assumption || reflexivity || discriminate || lra). Qed.

Lemma existsb_false {A} (f : A -> bool) l : existsb f l = false -> forall x, In x l -> f x = false.
Proof. intros H x I. destruct (f x) eqn:E; [|reflexivity]. assert (existsb f l = true) by (apply existsb_exists; eauto). congruence. Qed.

Lemma removelast_perm_last {A} (l : list A) (x : A) : removelast (l ++ [x]) = l.
Proof. apply removelast_last. Qed.

Lemma sorted_app l m : StronglySorted Rle l -> StronglySorted Rle m -> (forall a b, In a l -> In b m -> a <= b) -> StronglySorted Rle (l ++ m).
Proof.
  induction l as [|x l IH]; intros S T H; [assumption|]. inversion S as [|? ? S1 S2]; subst. cbn. constructor.
  - apply IH; auto. intros a b I J. apply H; [right|]; assumption.
  - apply Forall_app. split; [assumption|]. apply Forall_forall. intros b J. apply H; [left; reflexivity|assumption].
Qed.
Lemma sorted_snoc_last l x : StronglySorted Rle (l ++ [x]) -> forall y, In y l -> y <= x.
Proof.
  induction l as [|z l IH]; intros S y I; [destruct I|]. cbn in S. inversion S as [|? ? S1 S2]; subst. destruct I as [<-|I]; [|auto].
  rewrite Forall_forall in S2. apply S2, in_or_app. right. left. reflexivity.
Qed.
Lemma sorted_prefix l m : StronglySorted Rle (l ++ m) -> StronglySorted Rle l.
Proof.
  induction l as [|z l IH]; intros S; [constructor|]. cbn in S. inversion S as [|? ? S1 S2]; subst. constructor; [auto|].
  apply Forall_app in S2. tauto.
Qed.
Lemma filter_split (vs : list R) : ~ In 0 vs ->
  Permutation vs (filter (fun v => le_b v 0) vs ++ filter (fun v => le_b 0 v) vs).
Proof.
  induction vs as [|v vs IH]; intros N; [constructor|]. cbn [filter].
  assert (v <> 0) by (intros ->; apply N; left; reflexivity). assert (IH' := IH (fun I => N (or_intror I))).
  destruct (le_b v 0) eqn:E1; destruct (le_b 0 v) eqn:E2.
  - apply le_b_iff in E1. apply le_b_iff in E2. lra.
  - cbn. apply perm_skip, IH'.
  - apply Permutation_cons_app, IH'.
  - exfalso. assert (~ v <= 0) by (rewrite <- le_b_iff; congruence). assert (~ 0 <= v) by (rewrite <- le_b_iff; congruence). lra.
Qed.
Lemma filter_split0 (vs : list R) : In 0 vs -> NoDup vs ->
  Permutation (0 :: vs) (filter (fun v => le_b v 0) vs ++ filter (fun v => le_b 0 v) vs).
Proof.
  induction vs as [|v vs IH]; intros I N; [destruct I|]. inversion N as [|? ? N1 N2]; subst. cbn [filter].
  destruct (Req_dec v 0) as [->|Hv].
  - replace (le_b 0 0) with true by (symmetry; apply le_b_iff; lra). cbn. apply perm_skip.
    apply Permutation_cons_app, filter_split, N1.
  - destruct I as [I|I]; [contradiction|]. specialize (IH I N2).
    destruct (le_b v 0) eqn:E1; destruct (le_b 0 v) eqn:E2.
    + apply le_b_iff in E1. apply le_b_iff in E2. lra.
    + cbn. eapply perm_trans; [apply perm_swap|]. apply perm_skip, IH.
    + eapply perm_trans; [apply perm_swap|]. apply Permutation_cons_app, IH.
    + exfalso. assert (~ v <= 0) by (rewrite <- le_b_iff; congruence). assert (~ 0 <= v) by (rewrite <- le_b_iff; congruence). lra.
Qed.

Section Sweep.
Context {Row : Type} (row0 : Row) (good : R -> option R -> Row -> Prop) (ivc : engine Row).
(** The engine returns one current and one row for every voltage, in order. *)
Context (Hivc : forall vs, aligned row0 good vs (fst (ivc vs)) (snd (ivc vs))).

Lemma sweep_ok vs calls final js rs : sweep ivc vs = (calls, final, js, rs) -> NoDup vs ->
  aligned row0 good final js rs /\ Permutation vs final /\
  (StronglySorted Rle final \/ (Forall (fun v => v <= 0) vs /\ (exists v, In v vs /\ v < 0) /\ StronglySorted Rle (rev final))).
Proof.
  intros H N. unfold sweep in H. destruct (existsb ltb0 vs) eqn:E1.
  - destruct (existsb gtb0 vs) eqn:E2.
    + set (ng := filter (fun v => le_b v 0) vs) in *. set (ps := filter (fun v => le_b 0 v) vs) in *.
      cbv zeta in H. rewrite sort_unique_rev in H. set (n := take 0 ng (argsort ng)) in *. set (p := take 0 ps (argsort ps)) in *.
      assert (Ap := Hivc p). assert (An := Hivc (rev n)). destruct (ivc p) as [jp rp]. destruct (ivc (rev n)) as [jn rn].
      cbn [fst snd] in Ap, An. apply aligned_rev in An. rewrite rev_involutive in An, H.
      assert (Sn := sort_sorted ng). fold n in Sn. assert (Sp := sort_sorted ps). fold p in Sp.
      assert (Pn := sort_perm ng). fold n in Pn. assert (Pp := sort_perm ps). fold p in Pp.
      assert (In1 : forall a, In a n -> a <= 0).
      { intros a I. apply (Permutation_in _ (Permutation_sym Pn)) in I. apply filter_In in I. apply le_b_iff, (proj2 I). }
      assert (In2 : forall a, In a p -> 0 <= a).
      { intros a I. apply (Permutation_in _ (Permutation_sym Pp)) in I. apply filter_In in I. apply le_b_iff, (proj2 I). }
      destruct (existsb eqb0 vs) eqn:E3.
      * injection H as _ <- <- <-.
        apply existsb_exists in E3. destruct E3 as (z & Iz & Ez). apply eqb0_iff in Ez. subst z.
        assert (I0 : In 0 n). { apply (Permutation_in _ Pn). apply filter_In. split; [assumption|]. apply le_b_iff. lra. }
        destruct (exists_last (l := n)) as (n' & x & En); [intros E; rewrite E in I0; destruct I0|].
        assert (x = 0) as ->.
        { assert (x <= 0) by (apply In1; rewrite En; apply in_or_app; right; left; reflexivity).
          rewrite En in I0. apply in_app_or in I0. destruct I0 as [I0|[I0|[]]]; [|assumption].
          rewrite En in Sn. assert (B := sorted_snoc_last _ _ Sn _ I0). lra. }
        split; [apply aligned_app; [apply aligned_removelast|]; assumption|]. rewrite En, removelast_last. split.
        -- assert (P := filter_split0 vs Iz N). fold ng ps in P. rewrite Pn, Pp, En in P.
           rewrite <- app_assoc in P. cbn [app] in P. apply Permutation_cons_app_inv in P. exact P.
        -- left. apply sorted_app; [rewrite En in Sn; apply sorted_prefix in Sn; assumption|assumption|].
           intros a b Ia Ib. assert (a <= 0) by (apply In1; rewrite En; apply in_or_app; left; assumption).
           assert (0 <= b) by (apply In2; assumption). lra.
      * injection H as _ <- <- <-. split; [apply aligned_app; assumption|]. split.
        -- assert (N0 : ~ In 0 vs). { intros I. assert (E := existsb_false _ _ E3 0 I). assert (eqb0 0 = true) by (apply eqb0_iff; reflexivity). congruence. }
           assert (P := filter_split vs N0). fold ng ps in P. rewrite Pn, Pp in P. exact P.
        -- left. apply sorted_app; try assumption. intros a b Ia Ib. apply In1 in Ia. apply In2 in Ib. lra.
    + cbv zeta in H. rewrite sort_unique_rev in H. assert (A := Hivc (rev (take 0 vs (argsort vs)))).
      destruct (ivc (rev (take 0 vs (argsort vs)))) as [j r]. injection H as _ <- <- <-. split; [exact A|]. split.
      * eapply perm_trans; [apply sort_perm|apply Permutation_rev].
      * right. rewrite rev_involutive. split; [|split; [|apply sort_sorted]].
        -- apply Forall_forall. intros v I. assert (G := existsb_false _ _ E2 v I). assert (~ 0 < v) by (rewrite <- gtb0_iff; congruence). lra.
        -- apply existsb_exists in E1. destruct E1 as (v & I & L). apply ltb0_iff in L. eauto.
  - cbv zeta in H. assert (A := Hivc (take 0 vs (argsort vs))). destruct (ivc (take 0 vs (argsort vs))) as [j r].
    injection H as _ <- <- <-. split; [exact A|]. split; [apply sort_perm|]. left. apply sort_sorted.
Qed.
End Sweep.

(** * Interpolation *)
Lemma interp_fill_node x y lo hi i : increasing x -> (i < length x)%nat ->
  interp_fill x y lo hi (at_ x i) = at_ y i.
Proof.
  intros Hx Hi. unfold interp_fill.
  assert (at_ x 0 <= at_ x i) by (apply increasing_le; [assumption|lia]).
  assert (at_ x i <= at_ x (length x - 1)) by (apply increasing_le; [assumption|lia]).
  destruct (Rlt_dec _ _); [lra|]. destruct (Rlt_dec _ _); [lra|].
  destruct (Nat.le_gt_cases 2 (length x)) as [L|L].
  - assert (E := scipy_interp_node x y lo hi i Hx L Hi). unfold scipy_interp in E.
    destruct (Rlt_dec (at_ x i) (at_ x 0)); [lra|]. destruct (Rlt_dec _ _) in E; [lra|]. exact E.
  - assert (i = 0%nat) by lia. subst i. unfold call_linear. replace (length x - 1)%nat with 0%nat by lia.
    unfold clip. rewrite Nat.min_0_r. cbn [Nat.sub]. unfold Rdiv. rewrite !Rminus_eq_0. lra.
Qed.

Lemma non_nan_incl l v c : In (v, c) (non_nan l) <-> In (v, Some c) l.
Proof.
  induction l as [|(w, [d|]) l IH]; cbn [non_nan In]; [tauto| |].
  - rewrite IH. split; (intros [E|E]; [left; congruence|right; assumption]).
  - rewrite IH. split; [auto|]. intros [E|E]; [congruence|assumption].
Qed.
Lemma non_nan_sorted l : StronglySorted Rle (map fst l) -> StronglySorted Rle (map fst (non_nan l)).
Proof.
  induction l as [|(w, o) l IH]; intros S; [constructor|]. cbn [map fst] in S. inversion S as [|? ? S1 S2]; subst.
  destruct o as [c|]; cbn [non_nan map fst]; [|auto]. constructor; [auto|].
  apply Forall_forall. intros b I. apply in_map_iff in I. destruct I as ((b', c') & <- & I). apply non_nan_incl in I.
  rewrite Forall_forall in S2. apply S2. apply (in_map fst) in I. exact I.
Qed.
Lemma non_nan_nodup l : NoDup (map fst l) -> NoDup (map fst (non_nan l)).
Proof.
  induction l as [|(w, o) l IH]; intros S; [constructor|]. cbn [map fst] in S. inversion S as [|? ? S1 S2]; subst.
  destruct o as [c|]; cbn [non_nan map fst]; [|auto]. constructor; [|auto]. intros I. apply S1.
  apply in_map_iff in I. destruct I as ((b', c') & E & I). cbn [fst] in E. subst b'. apply non_nan_incl in I. apply (in_map fst) in I. exact I.
Qed.
Lemma nth_combine_in (l : list R) (m : list (option R)) i c : length m = length l -> (i < length l)%nat ->
  nth i m None = Some c -> In (nth i l 0, Some c) (combine l m).
Proof. intros L H E. rewrite <- E. rewrite <- combine_nth by auto. apply nth_In. rewrite combine_length. lia. Qed.

(** The interpolator goes through every converged point. *)
Lemma nodes_exact rv cur lo hi i c : StronglySorted Rle rv -> NoDup rv -> length cur = length rv -> (i < length rv)%nat ->
  nth i cur None = Some c ->
  interp_fill (map fst (non_nan (combine rv cur))) (map snd (non_nan (combine rv cur))) lo hi (nth i rv 0) = c.
Proof.
  intros S N L Hi E. set (nn := non_nan (combine rv cur)).
  assert (I : In (nth i rv 0, c) nn) by (apply non_nan_incl, nth_combine_in; auto).
  assert (F : map fst (combine rv cur) = rv) by (apply map_fst_combine; auto).
  assert (X : increasing (map fst nn)).
  { apply sorted_increasing; [apply non_nan_sorted|apply non_nan_nodup]; rewrite F; assumption. }
  destruct (In_nth _ _ (0, 0) I) as (k & Hk & Ek).
  assert (E1 : nth i rv 0 = at_ (map fst nn) k). { change 0 with (fst (0, 0)) at 2. rewrite map_nth, Ek. reflexivity. }
  assert (E2 : c = at_ (map snd nn) k). { change 0 with (snd (0, 0)). rewrite map_nth, Ek. reflexivity. }
  rewrite E1, E2. apply interp_fill_node; [assumption|rewrite map_length; assumption].
Qed.

(** * Specification of C67 *)

(** Sesame's sign of a voltage: inverted for a junction with its p side at the back. *)
Definition sesame_sign (rho : list R) (v : R) : R := if p_at_back rho then - v else v.
(** The voltages that are solved: those not beyond the band gap plus 10 kT. *)
Definition solved (rho : list R) (max_Eg T : R) (vs : list R) (v : R) : Prop :=
  In v vs /\ sesame_sign rho v <= max_Eg + 10 * (8617 / 10 ^ 8) * T.
(** The shunt resistance used: none given or one above 1e14 counts as 1e14. *)
Definition shunt_used (r : option R) : R :=
  match r with Some r => if Rlt_dec r (10 ^ 14) then r else 10 ^ 14 | None => 10 ^ 14 end.
Lemma shunt_used_eq r : sesame_Rsh r = shunt_used r.
Proof.
  destruct r as [r|]; [|reflexivity]. cbn [sesame_Rsh shunt_used]. unfold Rmin. set (M := 10 ^ 14). clearbody M.
  destruct (Rle_dec r M), (Rlt_dec r M); try lra.
Qed.
(** Current through the junction and its shunt, for the current density [j] of Sesame
    at voltage [v]. *)
Definition with_shunt (scale Rsh v : R) (j : option R) : option R :=
  option_map (fun j => j * scale * 10 ^ 4 + v / Rsh) j.

Lemma shunted_spec scale Rsh v j : shunted scale Rsh (v, j) = with_shunt scale Rsh v j.
Proof. destruct j; reflexivity. Qed.

Lemma cur_nth scale Rsh rv js i : length js = length rv -> (i < length rv)%nat ->
  nth i (map (shunted scale Rsh) (combine rv js)) None = with_shunt scale Rsh (nth i rv 0) (nth i js None).
Proof.
  intros L H. rewrite (nth_indep _ None (shunted scale Rsh (0, None))) by (rewrite map_length, combine_length; lia).
  rewrite map_nth, combine_nth by auto. apply shunted_spec.
Qed.
Lemma NoDup_map_opp vs : NoDup vs -> NoDup (map Ropp vs).
Proof. apply FinFun.Injective_map_NoDup. intros a b H. lra. Qed.
Lemma argsort_forall l : Forall (fun i => (i < length l)%nat) (argsort l).
Proof. apply Forall_forall. intros i I. apply (Permutation_in _ (Permutation_sym (argsort_perm l))) in I. apply in_seq in I. lia. Qed.
Lemma existsb_le vs m v : In v (filter (fun v => le_b v m) vs) <-> In v vs /\ v <= m.
Proof. rewrite filter_In, le_b_iff. tauto. Qed.

Section IVTheorems.
Context {Row : Type} (row0 : Row) (good : R -> option R -> Row -> Prop) (ivc : engine Row).
Context (Hivc : forall vs, aligned row0 good vs (fst (ivc vs)) (snd (ivc vs))).

Lemma iv_run rho Eg T scale Rs vs o : NoDup vs -> iv_sesame row0 ivc rho Eg T scale Rs vs = Ok o ->
  exists js lo hi,
    aligned row0 (fun v => good (sesame_sign rho v)) (s_voltage o) js (s_result o) /\
    NoDup (s_voltage o) /\ (forall v, In v (s_voltage o) <-> solved rho Eg T vs v) /\
    s_current o = map (shunted scale (sesame_Rsh Rs)) (combine (s_voltage o) js) /\
    s_iv o = interp_fill (map fst (non_nan (combine (s_voltage o) (s_current o)))) (map snd (non_nan (combine (s_voltage o) (s_current o)))) lo hi /\
    (exists v0, hd_error (non_nan (combine (s_voltage o) (s_current o))) = Some (v0, lo)) /\
    hi = snd (last (non_nan (combine (s_voltage o) (s_current o))) (0, 0)) /\
    (StronglySorted Rle (s_voltage o) \/
     (p_at_back rho = false /\ (forall v, solved rho Eg T vs v -> v <= 0) /\ (exists v, solved rho Eg T vs v /\ v < 0) /\
      StronglySorted Rle (rev (s_voltage o)))).
Proof.
  intros N H. unfold iv_sesame in H. unfold sesame_sign, solved. unfold sesame_sign.
  change (Eg + 10 * (8617 / 10 ^ 8) * T) with (max_voltage Eg T). set (m := max_voltage Eg T) in *. destruct (p_at_back rho) eqn:Ep.
  - set (ks := filter (fun v => le_b v m) (map Ropp vs)) in *. destruct (sweep ivc ks) as [[[calls final] j] r] eqn:Es.
    assert (Nk : NoDup ks) by (apply NoDup_filter, NoDup_map_opp, N).
    destruct (sweep_ok row0 good ivc Hivc _ _ _ _ _ Es Nk) as (A & P & _).
    cbv zeta in H. set (rv := map Ropp final) in *. apply aligned_opp in A. fold rv in A.
    assert (A' := aligned_take row0 _ _ _ _ (argsort rv) A (argsort_forall rv)).
    set (rv' := take 0 rv (argsort rv)) in *. set (j' := take None j (argsort rv)) in *. set (r' := take row0 r (argsort rv)) in *.
    set (cur := map _ _) in H. set (nn := non_nan (combine rv' cur)) in *.
    destruct nn as [|(v0, lo) nn'] eqn:En; [discriminate|]. apply (f_equal (fun x => match x with Ok y => y | Err _ => o end)) in H. cbn in H. subst o.
    cbn [s_voltage s_current s_iv s_result]. exists j', lo, (snd (last ((v0, lo) :: nn') (0, 0))).
    unfold nn in En. fold cur. rewrite En.
    assert (Prv : Permutation rv rv') by apply sort_perm.
    split; [exact A'|]. split; [|split; [|split; [reflexivity|split; [reflexivity|split; [eexists; reflexivity|split; [reflexivity|]]]]]].
    + apply (Permutation_NoDup Prv). apply NoDup_map_opp. apply (Permutation_NoDup P Nk).
    + intros v. split.
      * intros I. apply (Permutation_in _ (Permutation_sym Prv)) in I. apply in_map_iff in I. destruct I as (w & <- & I).
        apply (Permutation_in _ (Permutation_sym P)) in I. apply existsb_le in I. destruct I as [I L].
        apply in_map_iff in I. destruct I as (u & <- & I). rewrite Ropp_involutive. auto.
      * intros [I L]. apply (Permutation_in _ Prv). apply in_map_iff. exists (- v). split; [apply Ropp_involutive|].
        apply (Permutation_in _ P). apply existsb_le. split; [apply in_map; assumption|assumption].
    + left. apply sort_sorted.
  - set (ks := filter (fun v => le_b v m) vs) in *. destruct (sweep ivc ks) as [[[calls final] j] r] eqn:Es.
    assert (Nk : NoDup ks) by (apply NoDup_filter, N).
    destruct (sweep_ok row0 good ivc Hivc _ _ _ _ _ Es Nk) as (A & P & S).
    cbv zeta in H.
    set (cur := map _ _) in H. set (nn := non_nan (combine final cur)) in *.
    destruct nn as [|(v0, lo) nn'] eqn:En; [discriminate|]. apply (f_equal (fun x => match x with Ok y => y | Err _ => o end)) in H. cbn in H. subst o.
    cbn [s_voltage s_current s_iv s_result]. exists j, lo, (snd (last ((v0, lo) :: nn') (0, 0))).
    unfold nn in En. fold cur. rewrite En.
    assert (Hin : forall v, In v final <-> In v vs /\ v <= m).
    { intros v. rewrite <- existsb_le. fold ks. split; [apply Permutation_in, Permutation_sym, P|apply Permutation_in, P]. }
    split; [exact A|]. split; [|split; [|split; [reflexivity|split; [reflexivity|split; [eexists; reflexivity|split; [reflexivity|]]]]]].
    + apply (Permutation_NoDup P Nk).
    + exact Hin.
    + destruct S as [S|(F & (v & I & L) & S)]; [left; assumption|]. right. split; [reflexivity|]. split; [|split; [|assumption]].
      * intros w W. rewrite Forall_forall in F. apply F. apply existsb_le. exact W.
      * exists v. split; [|assumption]. apply existsb_le. exact I.
Qed.

(** Every solved voltage exactly once and in increasing order, each with the current and
    the result row of that voltage and the shunt, and the interpolator returns exactly
    these currents.  The exception is a junction with its n side at the back and all
    solved voltages at or below zero (see [C67_reversed]). *)
Theorem C67_partial rho Eg T scale Rs vs o : NoDup vs -> iv_sesame row0 ivc rho Eg T scale Rs vs = Ok o ->
  (p_at_back rho = true \/ (exists v, solved rho Eg T vs v /\ 0 < v) \/ (forall v, solved rho Eg T vs v -> 0 <= v)) ->
  increasing (s_voltage o) /\
  (forall v, In v (s_voltage o) <-> solved rho Eg T vs v) /\
  length (s_current o) = length (s_voltage o) /\
  (forall i, (i < length (s_voltage o))%nat ->
     exists j, good (sesame_sign rho (nth i (s_voltage o) 0)) j (nth i (s_result o) row0) /\
       nth i (s_current o) None = with_shunt scale (shunt_used Rs) (nth i (s_voltage o) 0) j) /\
  (forall i c, (i < length (s_voltage o))%nat -> nth i (s_current o) None = Some c -> s_iv o (nth i (s_voltage o) 0) = c).
Proof.
  intros N H C. destruct (iv_run _ _ _ _ _ _ _ N H) as (js & lo & hi & (A1 & A2 & A3) & D & I & Ec & Ei & _ & _ & S).
  assert (S' : StronglySorted Rle (s_voltage o)).
  { destruct S as [S|(Ep & F & (v & W & L) & _)]; [assumption|]. exfalso. destruct C as [C|[(w & Hw & L')|C]].
    - congruence.
    - specialize (F w Hw). lra.
    - specialize (C v W). lra. }
  assert (Lc : length (s_current o) = length (s_voltage o)) by (rewrite Ec, map_length, combine_length; lia).
  split; [apply sorted_increasing; assumption|]. split; [exact I|]. split; [exact Lc|]. split.
  - intros i Hi. exists (nth i js None). split; [apply A3, Hi|]. rewrite Ec, <- shunt_used_eq. apply cur_nth; auto.
  - intros i c Hi E. rewrite Ei. apply nodes_exact; auto.
Qed.

(** With the n side at the back, all solved voltages at or below zero and one below, the
    arrays are in decreasing order.  The interpolator then never interpolates: it returns
    one constant above the lowest voltage and another one at and below it. *)
Theorem C67_reversed rho Eg T scale Rs vs o : NoDup vs -> iv_sesame row0 ivc rho Eg T scale Rs vs = Ok o ->
  p_at_back rho = false -> (forall v, solved rho Eg T vs v -> v <= 0) -> (exists v, solved rho Eg T vs v /\ v < 0) ->
  (forall i, (i < length (s_current o))%nat -> nth i (s_current o) None <> None) -> (2 <= length (s_voltage o))%nat ->
  exists vmin vmax cmin cmax, vmin < vmax /\
    (forall v, solved rho Eg T vs v -> vmin <= v <= vmax) /\
    In (vmin, Some cmin) (combine (s_voltage o) (s_current o)) /\
    In (vmax, Some cmax) (combine (s_voltage o) (s_current o)) /\
    forall v, s_iv o v = if Rlt_dec vmin v then cmin else cmax.
Proof.
  intros N H Ep F Ex Conv L2. destruct (iv_run _ _ _ _ _ _ _ N H) as (js & lo & hi & (A1 & A2 & A3) & D & I & Ec & Ei & (v0 & Eh) & El & _).
  assert (Sr : StronglySorted Rle (rev (s_voltage o))).
  { unfold iv_sesame in H. rewrite Ep in H. set (ks := filter _ vs) in H.
    assert (E1 : existsb ltb0 ks = true). { apply existsb_exists. destruct Ex as (v & W & Lv). exists v. split; [|apply ltb0_iff; assumption].
      apply existsb_le. unfold solved, sesame_sign in W. rewrite Ep in W. exact W. }
    assert (E2 : existsb gtb0 ks = false). { apply not_true_is_false. intros E. apply existsb_exists in E. destruct E as (v & W & G). apply gtb0_iff in G.
      apply existsb_le in W. assert (v <= 0). { apply F. unfold solved, sesame_sign. rewrite Ep. exact W. } lra. }
    unfold sweep in H. rewrite E1, E2 in H. cbv zeta in H. rewrite sort_unique_rev in H. destruct (ivc _) as [j r].
    destruct (non_nan _) as [|(a, b) nn]; [discriminate|]. apply (f_equal (fun x => match x with Ok y => y | Err _ => o end)) in H. cbn in H. subst o. cbn [s_voltage].
    rewrite rev_involutive. apply sort_sorted. }
  assert (Inc : increasing (rev (s_voltage o))) by (apply sorted_increasing; [assumption|apply NoDup_rev; assumption]).
  set (V := s_voltage o) in *. set (J := s_current o) in *.
  assert (LJ : length J = length V) by (rewrite Ec, map_length, combine_length; lia).
  assert (Dec : forall i j, (i < j < length V)%nat -> nth j V 0 < nth i V 0).
  { intros i j Hij. assert (E := Inc (length V - S j)%nat (length V - S i)%nat). rewrite rev_length in E. specialize (E ltac:(lia)).
    rewrite !rev_nth in E by lia. replace (length V - S (length V - S j))%nat with j in E by lia.
    replace (length V - S (length V - S i))%nat with i in E by lia. exact E. }
  assert (Full : forall l : list (R * option R), (forall p, In p l -> snd p <> None) -> map fst (non_nan l) = map fst l /\ length (non_nan l) = length l /\
           (forall d1 d2 k c, nth k (map snd l) d1 = Some c -> nth k (map snd (non_nan l)) d2 = c \/ (length l <= k)%nat)).
  { induction l as [|(w, [d|]) l IH]; intros Hl.
    - split; [reflexivity|]. split; [reflexivity|]. intros. right. simpl. lia.
    - destruct IH as (B1 & B2 & B3); [intros p P; apply Hl; right; assumption|]. cbn [non_nan map fst snd length].
      split; [f_equal; assumption|]. split; [f_equal; assumption|].
      intros d1 d2 [|k] c E; cbn [nth] in *; [left; congruence|]. destruct (B3 d1 d2 k c E) as [G|G]; [left; assumption|right; lia].
    - exfalso. apply (Hl (w, None)); [left; reflexivity|reflexivity]. }
  destruct (Full (combine V J)) as (B1 & B2 & B3).
  { intros (w, c) P. apply in_combine_r in P. cbn [snd]. destruct (In_nth _ _ None P) as (k & Hk & Ek). rewrite <- Ek. apply Conv, Hk. }
  rewrite map_fst_combine in B1 by auto. rewrite combine_length in B2. rewrite map_snd_combine in B3 by auto.
  assert (LM : length (non_nan (combine V J)) = length V) by lia.
  assert (Last : (length V - 1 < length V)%nat) by lia.
  assert (C0 := Conv 0%nat ltac:(lia)). assert (C1 := Conv (length V - 1)%nat ltac:(lia)).
  destruct (nth 0 J None) as [cmax|] eqn:Ecx; [|congruence]. destruct (nth (length V - 1) J None) as [cmin|] eqn:Ecm; [|congruence].
  exists (nth (length V - 1) V 0), (nth 0 V 0), cmin, cmax.
  split; [apply Dec; lia|]. split.
  { intros v W. apply I in W. destruct (In_nth _ _ 0 W) as (k & Hk & Ek). rewrite <- Ek. split.
    - destruct (Nat.eq_dec k (length V - 1)) as [->|Nk]; [lra|]. left. apply Dec. lia.
    - destruct k as [|k]; [lra|]. left. apply Dec. lia. }
  split; [apply nth_combine_in; auto|]. split; [apply nth_combine_in; auto; lia|].
  assert (Lo : lo = cmax).
  { destruct (B3 None 0 0%nat cmax Ecx) as [G|G]; [|rewrite combine_length in G; lia].
    destruct (non_nan (combine V J)) as [|(a, b) nn]; [discriminate|]. cbn in Eh, G. congruence. }
  assert (Hi' : hi = cmin).
  { destruct (B3 None 0 (length V - 1)%nat cmin Ecm) as [G|G]; [|rewrite combine_length in G; lia].
    rewrite El. rewrite <- G. rewrite <- LM. set (nn := non_nan (combine V J)) in *.
    change 0 with (snd (0, 0)) at 3. rewrite map_nth. destruct (exists_last (l := nn)) as (nn' & x & E).
    { intros E. rewrite E in LM. cbn in LM. lia. }
    rewrite E, last_last, app_length. cbn [length]. rewrite Nat.add_sub, app_nth2, Nat.sub_diag by lia. reflexivity. }
  intros v. rewrite Ei, Lo, Hi'. unfold interp_fill. rewrite B1.
  destruct (Rlt_dec (nth (length V - 1) V 0) v) as [G|G]; [reflexivity|].
  destruct (Rlt_dec v (nth 0 V 0)) as [G'|G']; [reflexivity|]. exfalso.
  assert (nth (length V - 1) V 0 < nth 0 V 0) by (apply Dec; lia). lra.
Qed.

(** When no voltage converges the message written for the case is never raised: the
    exception object is built and dropped, and the next use of the unset variable fails. *)
Theorem C113_no_solution rho Eg T scale Rs vs :
  (forall ws, Forall (fun j => j = None) (fst (ivc ws))) ->
  iv_sesame row0 ivc rho Eg T scale Rs vs = Err UnboundLocalError.
Proof.
  intros Hn. unfold iv_sesame. set (ks := filter _ _).
  assert (Fs : forall calls final js rs, sweep ivc ks = (calls, final, js, rs) -> Forall (fun j => j = None) js).
  { intros calls final js rs. unfold sweep. assert (Fr : forall l : list (option R), Forall (fun j => j = None) l -> Forall (fun j => j = None) (rev l)).
    { intros l Fl. apply Forall_forall. intros x I. apply in_rev in I. rewrite Forall_forall in Fl. auto. }
    assert (Fl : forall l : list (option R), Forall (fun j => j = None) l -> Forall (fun j => j = None) (removelast l)).
    { induction l as [|a l IHl]; intros G; [constructor|]. inversion G; subst. cbn. destruct l; [constructor|]. constructor; auto. }
    assert (Hs : forall ws, Forall (fun j => j = None) (fst (ivc ws))) by exact Hn.
    destruct (existsb ltb0 ks); [destruct (existsb gtb0 ks)|]; cbv zeta.
    - set (p := take 0 (filter (fun v => le_b 0 v) ks) _). set (n := take 0 (filter (fun v => le_b v 0) ks) _).
      assert (Hp := Hs p). assert (Hq := Hs n). destruct (ivc p) as [jp rp]. destruct (ivc n) as [jn rn]. cbn [fst] in Hp, Hq.
      destruct (existsb eqb0 ks); intros E; injection E as _ _ <- _; apply Forall_app; split; auto.
    - set (n := take 0 ks _). assert (Hq := Hs n). destruct (ivc n) as [jn rn]. intros E; injection E as _ _ <- _. exact Hq.
    - set (n := take 0 ks _). assert (Hq := Hs n). destruct (ivc n) as [jn rn]. intros E; injection E as _ _ <- _. exact Hq. }
  destruct (sweep ivc ks) as [[[calls final] js] rs] eqn:Es. assert (F := Fs _ _ _ _ eq_refl).
  assert (G : forall rv js', Forall (fun j => j = None) js' -> non_nan (combine rv (map (shunted scale (sesame_Rsh Rs)) (combine rv js'))) = []).
  { induction rv as [|v rv IH]; intros js' Fj; [reflexivity|]. destruct js' as [|j js']; [reflexivity|]. inversion Fj; subst. cbn. apply IH. assumption. }
  destruct (p_at_back rho).
  - rewrite G; [reflexivity|]. apply Forall_forall. intros x I. unfold take in I. apply in_map_iff in I. destruct I as (k & <- & _).
    destruct (nth_in_or_default k js None) as [I|I]; [|assumption]. rewrite Forall_forall in F. auto.
  - rewrite G; [reflexivity|assumption].
Qed.

(** Every call of the engine has voltages of one sign in order of distance from zero. *)
Theorem C115_sweep_order rho Eg T scale Rs vs o : iv_sesame row0 ivc rho Eg T scale Rs vs = Ok o ->
  (forall call, In call (s_calls o) ->
     (Forall (fun v => 0 <= v) call \/ Forall (fun v => v <= 0) call) /\
     StronglySorted (fun a b => Rabs a <= Rabs b) call) /\
  (forall v, (exists call, In call (s_calls o) /\ In v call) <->
     exists w, solved rho Eg T vs w /\ v = sesame_sign rho w).
Proof.
  intros H. unfold iv_sesame in H. unfold solved, sesame_sign. unfold sesame_sign.
  set (ks := filter _ _) in H.
  assert (Hks : forall v, In v ks <-> exists w, (In w vs /\ (if p_at_back rho then - w else w) <= max_voltage Eg T) /\ v = (if p_at_back rho then - w else w)).
  { intros v. unfold ks. rewrite existsb_le. destruct (p_at_back rho).
    - rewrite in_map_iff. split; [intros ((w & <- & I) & L)|intros (w & (I & L) & ->)]; eauto.
    - split; [intros (I & L)|intros (w & (I & L) & ->)]; eauto. }
  clearbody ks. assert (Ec : s_calls o = fst (fst (fst (sweep ivc ks)))).
  { destruct (sweep ivc ks) as [[[calls final] j] r]. cbn [fst]. destruct (p_at_back rho);
    (destruct (non_nan _) as [|(a, b) nn]; [discriminate|]; apply (f_equal (fun x => match x with Ok y => y | Err _ => o end)) in H; cbn in H; subst o; reflexivity). }
  rewrite Ec. clear H Ec.
  assert (Pos : forall l, (forall v, In v l -> 0 <= v) -> Forall (fun v => 0 <= v) (take 0 l (argsort l)) /\ StronglySorted (fun a b => Rabs a <= Rabs b) (take 0 l (argsort l))).
  { intros l Hl. assert (S := sort_sorted l). assert (F : Forall (fun v => 0 <= v) (take 0 l (argsort l))).
    { apply Forall_forall. intros v I. apply Hl. apply (Permutation_in _ (Permutation_sym (sort_perm l)) I). }
    split; [assumption|]. induction S as [|a l' S IH Fa]; [constructor|]. inversion F; subst. constructor; [auto|].
    rewrite Forall_forall in *. intros b B. specialize (Fa b B). assert (0 <= b) by auto. rewrite !Rabs_pos_eq; lra. }
  assert (Neg : forall l, (forall v, In v l -> v <= 0) -> Forall (fun v => v <= 0) (take 0 l (rev (argsort l))) /\ StronglySorted (fun a b => Rabs a <= Rabs b) (take 0 l (rev (argsort l)))).
  { intros l Hl. rewrite sort_unique_rev. assert (S := sort_sorted l). assert (F : Forall (fun v => v <= 0) (take 0 l (argsort l))).
    { apply Forall_forall. intros v I. apply Hl. apply (Permutation_in _ (Permutation_sym (sort_perm l)) I). }
    split; [apply Forall_forall; intros x I; apply in_rev in I; rewrite Forall_forall in F; auto|].
    induction S as [|a l' S IH Fa]; [constructor|]. inversion F; subst. cbn [rev].
    assert (G : forall m x, StronglySorted (fun a b => Rabs a <= Rabs b) m -> (forall b, In b m -> Rabs b <= Rabs x) -> StronglySorted (fun a b => Rabs a <= Rabs b) (m ++ [x])).
    { induction m as [|y m IHm]; intros x Sm Hm; [repeat constructor|]. inversion Sm as [|? ? Sm1 Sm2]; subst. cbn. constructor.
      - apply IHm; [assumption|]. intros b B. apply Hm. right. assumption.
      - apply Forall_app. split; [assumption|]. constructor; [|constructor]. apply Hm. left. reflexivity. }
    apply G; [auto|]. intros b B. apply in_rev in B. rewrite Forall_forall in *. specialize (Fa b B). assert (b <= 0) by auto.
    rewrite !Rabs_left1; lra. }
  assert (Ip : forall l v, In v (take 0 l (argsort l)) <-> In v l).
  { intros l v. split; apply Permutation_in; [apply Permutation_sym|]; apply sort_perm. }
  assert (Inn : forall l v, In v (take 0 l (rev (argsort l))) <-> In v l).
  { intros l v. rewrite sort_unique_rev, <- in_rev. apply Ip. }
  unfold sweep. destruct (existsb ltb0 ks) eqn:E1; [destruct (existsb gtb0 ks) eqn:E2|]; cbv zeta.
  - set (p := take 0 (filter (fun v => le_b 0 v) ks) _). set (n := take 0 (filter (fun v => le_b v 0) ks) _).
    destruct (ivc p) as [jp rp]. destruct (ivc n) as [jn rn].
    match goal with |- context [if existsb eqb0 ks then ?a else ?b] => replace (fst (fst (fst (if existsb eqb0 ks then a else b)))) with [p; n] by (destruct (existsb eqb0 ks); reflexivity) end.
    split.
    + intros call [<-|[<-|[]]].
      * destruct (Pos (filter (fun v => le_b 0 v) ks)) as [B1 B2]; [intros v I; apply filter_In in I; apply le_b_iff, (proj2 I)|]. auto.
      * destruct (Neg (filter (fun v => le_b v 0) ks)) as [B1 B2]; [intros v I; apply filter_In in I; apply le_b_iff, (proj2 I)|]. auto.
    + intros v. rewrite <- Hks. split.
      * intros (call & [<-|[<-|[]]] & I); [apply Ip, filter_In in I|apply Inn, filter_In in I]; apply I.
      * intros I. destruct (Rle_dec 0 v) as [L|L].
        -- exists p. split; [left; reflexivity|]. apply Ip, filter_In. split; [assumption|apply le_b_iff; assumption].
        -- exists n. split; [right; left; reflexivity|]. apply Inn, filter_In. split; [assumption|apply le_b_iff; lra].
  - set (n := take 0 ks _). destruct (ivc n) as [jn rn]. cbn [fst]. split.
    + intros call [<-|[]]. destruct (Neg ks) as [B1 B2].
      { intros v I. assert (G := existsb_false _ _ E2 v I). assert (~ 0 < v) by (rewrite <- gtb0_iff; congruence). lra. }
      auto.
    + intros v. rewrite <- Hks. split; [intros (call & [<-|[]] & I); exact (proj1 (Inn ks v) I)|].
      intros I. exists n. split; [left; reflexivity|]. apply Inn. exact I.
  - set (n := take 0 ks _). destruct (ivc n) as [jn rn]. cbn [fst]. split.
    + intros call [<-|[]]. destruct (Pos ks) as [B1 B2].
      { intros v I. assert (G := existsb_false _ _ E1 v I). assert (~ v < 0) by (rewrite <- ltb0_iff; congruence). lra. }
      auto.
    + intros v. rewrite <- Hks. split; [intros (call & [<-|[]] & I); exact (proj1 (Ip ks v) I)|].
      intros I. exists n. split; [left; reflexivity|]. apply Ip. exact I.
Qed.
End IVTheorems.

(** * Cases *)
Lemma iv_ok {Row} (row0 : Row) good ivc rho Eg T scale Rs vs :
  (forall vs, aligned row0 good vs (fst (ivc vs)) (snd (ivc vs))) ->
  NoDup vs -> (forall v j r, good v j r -> j <> None) -> (exists v, solved rho Eg T vs v) ->
  exists o, iv_sesame row0 ivc rho Eg T scale Rs vs = Ok o.
Proof.
  intros Hivc N Hg (v & Hv & Lv). unfold iv_sesame.
  set (ks := filter _ _).
  assert (Nk : NoDup ks). { apply NoDup_filter. destruct (p_at_back rho); [apply NoDup_map_opp|]; assumption. }
  assert (Ik : In (sesame_sign rho v) ks).
  { apply existsb_le. split; [|assumption]. unfold sesame_sign. destruct (p_at_back rho); [apply in_map|]; assumption. }
  destruct (sweep ivc ks) as [[[calls final] js] rs] eqn:Es.
  destruct (sweep_ok row0 good ivc Hivc _ _ _ _ _ Es Nk) as (A & P & _).
  assert (Pos : (0 < length final)%nat). { apply (Permutation_in _ P) in Ik. destruct final; [destruct Ik|cbn; lia]. }
  assert (G : forall rv js' rs' gd, aligned row0 gd rv js' rs' -> (forall v j r, gd v j r -> j <> None) -> (0 < length rv)%nat ->
     exists x, non_nan (combine rv (map (shunted scale (sesame_Rsh Rs)) (combine rv js'))) = x /\ x <> []).
  { intros rv js' rs' gd (A1 & A2 & A3) Hg' L. eexists. split; [reflexivity|]. destruct rv as [|a rv]; [cbn in L; lia|].
    destruct js' as [|j js']; [discriminate|]. specialize (A3 0%nat ltac:(cbn; lia)). cbn [nth] in A3. apply Hg' in A3.
    destruct j as [j|]; [|congruence]. cbn. discriminate. }
  destruct (p_at_back rho).
  - apply aligned_opp in A. assert (A' := aligned_take row0 _ _ _ _ (argsort (map Ropp final)) A (argsort_forall _)).
    destruct (G _ _ _ _ A') as (x & Ex & Nx); [intros w j r; apply Hg| |].
    { unfold take. rewrite map_length. rewrite <- (Permutation_length (argsort_perm _)), seq_length, map_length. assumption. }
    rewrite Ex. destruct x as [|(a, b) x]; [congruence|]. eexists. reflexivity.
  - destruct (G _ _ _ _ A) as (x & Ex & Nx); [intros w j r; apply Hg|assumption|].
    rewrite Ex. destruct x as [|(a, b) x]; [congruence|]. eexists. reflexivity.
Qed.

(** An engine that always converges. *)
Definition ex_good1 (v : R) (j : option R) (r : R) : Prop := j = Some v.
Definition ex_ivc1 : engine R := fun vs => (map Some vs, vs).
Lemma ex_aligned1 vs : aligned 0 ex_good1 vs (fst (ex_ivc1 vs)) (snd (ex_ivc1 vs)).
Proof.
  split; [apply map_length|]. split; [reflexivity|]. intros i Hi. unfold ex_good1. cbn [fst ex_ivc1].
  rewrite (nth_indep _ None (Some 0)) by (rewrite map_length; lia). apply map_nth.
Qed.

(** n side at the back, voltages -2 V and -1 V: the current returned at -2 V is that
    calculated for -1 V. *)
Theorem C67_refuted : exists rho o i c,
  NoDup [-2; -1] /\ (forall vs, aligned 0 ex_good1 vs (fst (ex_ivc1 vs)) (snd (ex_ivc1 vs))) /\
  (forall v, In v [-2; -1] -> solved rho 1 300 [-2; -1] v) /\
  iv_sesame 0 ex_ivc1 rho 1 300 1 None [-2; -1] = Ok o /\
  s_voltage o = [-1; -2] /\ nth i (s_current o) None = Some c /\ (i < 2)%nat /\
  s_iv o (nth i (s_voltage o) 0) <> c.
Proof.
  assert (Ep : p_at_back [-1; 1] = false).
  { unfold p_at_back. cbn. unfold lt_b. destruct (Rlt_dec _ _); [lra|reflexivity]. }
  assert (N : NoDup [-2; -1]). { repeat constructor; cbn; intuition lra. }
  assert (S : forall v, In v [-2; -1] -> solved [-1; 1] 1 300 [-2; -1] v).
  { intros v I. split; [assumption|]. unfold sesame_sign. rewrite Ep. unfold max_voltage. cbn in I. intuition lra. }
  destruct (iv_ok 0 ex_good1 ex_ivc1 [-1; 1] 1 300 1 None [-2; -1] ex_aligned1 N) as (o & Ho).
  { intros v j r ->. discriminate. }
  { exists (-2). apply S. left. reflexivity. }
  exists [-1; 1], o. assert (Ev : s_voltage o = [-1; -2] /\ s_current o = [Some (-1 * 1 * 10 ^ 4 + -1 / 10 ^ 14); Some (-2 * 1 * 10 ^ 4 + -2 / 10 ^ 14)]).
  { assert (K : filter (fun v => le_b v (max_voltage 1 300)) [-2; -1] = [-2; -1]).
    { cbn [filter]. unfold le_b, max_voltage. repeat (destruct (Rle_dec _ _); [|exfalso; lra]). reflexivity. }
    assert (K2 : existsb ltb0 [-2; -1] = true) by (apply existsb_exists; exists (-2); split; [left; reflexivity|apply ltb0_iff; lra]).
    assert (K3 : existsb gtb0 [-2; -1] = false). { cbn [existsb]. unfold gtb0. repeat (destruct (Rlt_dec _ _); [exfalso; lra|]). reflexivity. }
    assert (K4 : argsort [-2; -1] = [0; 1]%nat). { unfold argsort. cbn [length seq combine fold_right insert_key fst]. destruct (Rle_dec _ _); [reflexivity|exfalso; lra]. }
    revert Ho. unfold iv_sesame. rewrite Ep, K. unfold sweep. rewrite K2, K3, K4. cbn. intros Ho. injection Ho as <-. split; reflexivity. }
  destruct Ev as [Ev Ec].
  destruct (C67_reversed 0 ex_good1 ex_ivc1 ex_aligned1 _ _ _ _ _ _ _ N Ho Ep) as (vmin & vmax & cmin & cmax & L & B & I1 & I2 & F).
  { intros v (I & _). cbn in I. intuition lra. }
  { exists (-2). split; [apply S; left; reflexivity|lra]. }
  { intros i Hi. rewrite Ec in *. cbn [length] in Hi. destruct i as [|[|i]]; [discriminate|discriminate|lia]. }
  { rewrite Ev. cbn. lia. }
  exists 1%nat, (-2 * 1 * 10 ^ 4 + -2 / 10 ^ 14).
  split; [exact N|]. split; [exact ex_aligned1|]. split; [exact S|]. split; [exact Ho|]. split; [exact Ev|].
  split; [rewrite Ec; reflexivity|]. split; [lia|]. rewrite Ev. cbn [nth]. rewrite F.
  rewrite Ev, Ec in I1, I2. cbn [combine In] in I1, I2.
  assert (vmin <= -2) by (apply B, S; left; reflexivity). assert (-1 <= vmax) by (apply B, S; right; left; reflexivity).
  destruct (Rlt_dec vmin (-2)) as [G|G].
  - exfalso. destruct I1 as [E|[E|[]]]; injection E as E1 E2; lra.
  - destruct I2 as [E|[E|[]]]; injection E as E1 E2; lra.
Qed.

(** The hypotheses of [C67_partial] with a junction of either kind, voltages given out of
    order, and one beyond convergence. *)
Example C67_example : forall rho, (exists o, iv_sesame 0 ex_ivc1 rho 4 300 1 (Some 50) [1; -2; 0; 3; -1] = Ok o) /\
  NoDup [1; -2; 0; 3; -1] /\ (exists v, solved rho 4 300 [1; -2; 0; 3; -1] v /\ 0 < v) /\ (exists v, solved rho 4 300 [1; -2; 0; 3; -1] v /\ v < 0).
Proof.
  intros rho. assert (N : NoDup [1; -2; 0; 3; -1]). { repeat constructor; cbn; intuition lra. }
  assert (S : forall v, In v [1; -2; 0; 3; -1] -> solved rho 4 300 [1; -2; 0; 3; -1] v).
  { intros v I. split; [assumption|]. unfold sesame_sign, max_voltage. cbn in I. destruct (p_at_back rho); intuition lra. }
  split; [|split; [exact N|split]].
  - apply (iv_ok 0 ex_good1); [exact ex_aligned1|exact N|intros v j r ->; discriminate|]. exists 1. apply S. left. reflexivity.
  - exists 1. split; [apply S; cbn; auto|lra].
  - exists (-2). split; [apply S; cbn; auto|lra].
Qed.
(** The message "No solutions found for IV curve" is not what the caller sees. *)
Theorem C113_refuted : exists (ivc : engine R) rho vs e,
  (forall ws, Forall (fun j => j = None) (fst (ivc ws)) /\ length (fst (ivc ws)) = length ws) /\ vs <> [] /\
  iv_sesame 0 ivc rho 1 300 1 None vs = Err e /\ e = UnboundLocalError.
Proof.
  exists (fun vs => (map (fun _ => None) vs, map (fun v => v) vs)), [1; -1], [0; 1], UnboundLocalError.
  assert (F : forall ws : list R, Forall (fun j : option R => j = None) (map (fun _ => None) ws)).
  { intros ws. apply Forall_forall. intros j I. apply in_map_iff in I. destruct I as (w & <- & _). reflexivity. }
  split; [intros ws; split; [apply F|apply map_length]|]. split; [discriminate|]. split; [|reflexivity].
  apply C113_no_solution. intros ws. apply F.
Qed.

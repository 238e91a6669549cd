(** Properties C68, C69, C114, C116-C118: doping, mesh and material data of the Sesame
    driver, and its quantum efficiency. *)
From Coq Require Import Reals ZArith String List Arith Bool Lia Lra Psatz Permutation Sorted.
From Verif Require Import Common NumModel InterpModel InterpProps NpModel PhysConst SesameModel SesameProps.
Import ListNotations.
Open Scope R_scope.
Open Scope list_scope.

(** * Specification: depths in a stack (cm) *)
Fixpoint total (w : list R) : R := match w with [] => 0 | x :: w' => x + total w' end.
(** Depth of the front of layer [i]. *)
Definition front (w : list R) (i : nat) : R := total (firstn i w).
(** Layer [i] holds depth [x]: from its front up to the front of the next layer; the
    last one also at its back. *)
Definition holds (w : list R) (i : nat) (x : R) : Prop :=
  (i < length w)%nat /\ front w i <= x /\ (x < front w (S i) \/ (S i = length w /\ x = total w)).

Lemma prefix_sums_nth w : forall a i, (i <= length w)%nat -> at_ (prefix_sums a w) i = a + front w i.
Proof.
  induction w as [|x w IH]; intros a i H.
  - cbn [length] in H. assert (i = 0%nat) by lia. subst. unfold front. cbn. lra.
  - destruct i as [|i]; cbn [prefix_sums nth]; [unfold front; cbn; lra|]. rewrite IH by (cbn [length] in H; lia). unfold front. cbn [firstn total]. lra.
Qed.
Lemma prefix_sums_length w : forall a, length (prefix_sums a w) = S (length w).
Proof. induction w as [|x w IH]; intros a; [reflexivity|]. cbn. f_equal. apply IH. Qed.
Lemma bump_last_length l : length (bump_last l) = length l.
Proof. induction l as [|x [|y l] IH]; [reflexivity|reflexivity|]. change (bump_last (x :: y :: l)) with (x :: bump_last (y :: l)). cbn [length]. rewrite IH. reflexivity. Qed.
Lemma bump_last_nth l : forall i, (i < length l)%nat ->
  at_ (bump_last l) i = at_ l i + (if Nat.eqb (S i) (length l) then / 10 ^ 10 else 0).
Proof.
  induction l as [|x [|y l] IH]; intros i H.
  - cbn in H. lia.
  - cbn [length] in *. assert (i = 0%nat) by lia. subst. reflexivity.
  - change (bump_last (x :: y :: l)) with (x :: bump_last (y :: l)). destruct i as [|i].
    + cbn [nth length Nat.eqb]. lra.
    + change (at_ (x :: bump_last (y :: l)) (S i)) with (at_ (bump_last (y :: l)) i). rewrite IH by (cbn [length] in *; lia). reflexivity.
Qed.
Lemma edges_nth w i : (i <= length w)%nat -> at_ (edges w) i = front w i + (if Nat.eqb i (length w) then / 10 ^ 10 else 0).
Proof.
  intros H. unfold edges. rewrite bump_last_nth by (rewrite prefix_sums_length; lia). rewrite prefix_sums_length, prefix_sums_nth by lia.
  cbn [Nat.eqb]. lra.
Qed.
Lemma edges_length w : length (edges w) = S (length w).
Proof. unfold edges. rewrite bump_last_length. apply prefix_sums_length. Qed.

Lemma front_full w i : (length w <= i)%nat -> front w i = total w.
Proof. intros H. unfold front. rewrite firstn_all2 by lia. reflexivity. Qed.
Lemma front_S w i : (i < length w)%nat -> front w (S i) = front w i + at_ w i.
Proof.
  revert i. induction w as [|x w IH]; intros i H; [cbn in H; lia|]. destruct i as [|i]; [unfold front; cbn; lra|].
  unfold front in *. cbn [length] in H. change (firstn (S (S i)) (x :: w)) with (x :: firstn (S i) w). change (firstn (S i) (x :: w)) with (x :: firstn i w).
  cbn [total nth]. rewrite IH by lia. lra.
Qed.
Lemma front_mono w i j : Forall (fun x => 0 <= x) w -> (i <= j)%nat -> front w i <= front w j.
Proof.
  intros F. induction j as [|j IH]; intros H; [assert (i = 0%nat) by lia; subst; lra|].
  destruct (Nat.eq_dec i (S j)) as [->|N]; [lra|]. specialize (IH ltac:(lia)).
  destruct (Nat.lt_ge_cases j (length w)) as [L|L].
  - rewrite front_S by assumption. assert (0 <= at_ w j). { rewrite Forall_forall in F. apply F, nth_In, L. } lra.
  - rewrite (front_full w (S j)) by lia. rewrite (front_full w j) in IH by lia. assumption.
Qed.

(** Every depth of the stack is held by one layer and by only one. *)
Lemma holds_exists w x : Forall (fun y => 0 <= y) w -> 0 <= x <= total w -> (0 < length w)%nat -> exists i, holds w i x.
Proof.
  intros F [H0 H1] L. assert (G : forall n, (n <= length w)%nat -> front w n <= x \/ exists i, (i < n)%nat /\ front w i <= x < front w (S i)).
  { induction n as [|n IH]; intros Hn; [left; unfold front; cbn; lra|]. destruct (IH ltac:(lia)) as [G|(i & Hi & G)]; [|right; exists i; split; [lia|assumption]].
    destruct (Rle_dec (front w (S n)) x) as [K|K]; [left; assumption|]. right. exists n. split; [lia|]. lra. }
  destruct (G (length w) (le_n _)) as [K|(i & Hi & K)].
  - assert (M := front_mono w (length w - 1) (length w) F ltac:(lia)). rewrite (front_full w (length w)) in M, K by lia.
    exists (length w - 1)%nat. split; [lia|]. split; [lra|]. right. split; [lia|lra].
  - exists i. split; [assumption|]. split; [apply K|left; apply K].
Qed.
Lemma holds_unique w x i j : Forall (fun y => 0 <= y) w -> holds w i x -> holds w j x -> i = j.
Proof.
  intros F. assert (W : forall i j, (i < j)%nat -> holds w i x -> holds w j x -> False).
  { intros a b Lab (A1 & A2 & A3) (B1 & B2 & _). assert (M := front_mono w (S a) b F ltac:(lia)). destruct A3 as [A3|[A3 _]]; [lra|lia]. }
  intros Hi Hj. destruct (Nat.lt_trichotomy i j) as [T|[T|T]]; [|assumption|]; exfalso; eauto.
Qed.

Lemma in_layer_iff w i x : Forall (fun y => 0 <= y) w -> (i < length w)%nat -> x <= total w ->
  (in_layer (edges w) i x = true <-> holds w i x).
Proof.
  intros F Hi Hx. unfold in_layer, holds. rewrite andb_true_iff, le_b_iff, lt_b_iff, !edges_nth by lia.
  replace (Nat.eqb i (length w)) with false by (symmetry; apply Nat.eqb_neq; lia). replace (i + 1)%nat with (S i) by lia.
  destruct (Nat.eqb (S i) (length w)) eqn:E.
  - apply Nat.eqb_eq in E. rewrite (front_full w (S i)) by lia. split.
    + intros [A B]. split; [assumption|]. split; [lra|]. destruct (Req_dec x (total w)) as [->|N]; [right; auto|left; lra].
    + intros (_ & A & [B|[_ B]]); split; lra.
  - apply Nat.eqb_neq in E. split.
    + intros [A B]. split; [assumption|]. split; [lra|]. left. lra.
    + intros (_ & A & [B|[B _]]); [split; lra|contradiction].
Qed.

(** The loop over the layers, one mesh point at a time. *)
Definition point (e : list R) (x : R) (d : R) (il : nat * slayer) : R :=
  if in_layer e (fst il) x then doping_fn (snd il) (x / 100 - at_ e (fst il) / 100) else d.
Lemma assign_points e mesh ils : forall dop, length dop = length mesh ->
  fold_left (assign_layer e mesh) ils dop = map (fun p => fold_left (point e (fst p)) ils (snd p)) (combine mesh dop).
Proof.
  induction ils as [|(i, l) ils IH]; intros dop L.
  - cbn. symmetry. apply map_snd_combine. auto.
  - cbn [fold_left]. rewrite IH.
    + unfold assign_layer. clear IH. revert dop L. induction mesh as [|x mesh IHm]; intros [|d dop] L; try discriminate; [reflexivity|].
      cbn [combine map fst snd]. f_equal. apply IHm. injection L as L. exact L.
    + unfold assign_layer. rewrite map_length, combine_length. lia.
Qed.

Lemma fold_point_miss e x ils d : (forall il, In il ils -> in_layer e (fst il) x = false) -> fold_left (point e x) ils d = d.
Proof.
  revert d. induction ils as [|il ils IH]; intros d H; [reflexivity|]. cbn [fold_left]. unfold point at 2. rewrite H by (left; reflexivity).
  apply IH. intros il' I. apply H. right. assumption.
Qed.
Lemma fold_point_hit e x ils d k l : NoDup (map fst ils) -> In (k, l) ils -> in_layer e k x = true ->
  (forall il, In il ils -> fst il <> k -> in_layer e (fst il) x = false) ->
  fold_left (point e x) ils d = doping_fn l (x / 100 - at_ e k / 100).
Proof.
  revert d. induction ils as [|il ils IH]; intros d N I H1 H2; [destruct I|]. cbn [map] in N. inversion N as [|? ? N1 N2]; subst. destruct I as [->|I].
  - cbn [fold_left]. unfold point at 2. cbn [fst snd] in *. rewrite H1. apply fold_point_miss. intros il' I'. apply H2; [right; assumption|].
    intros E. apply N1. rewrite <- E. apply in_map. assumption.
  - cbn [fold_left]. apply IH; auto. intros il' I'. apply H2. right. assumption.
Qed.

Lemma in_enum {A} (ls : list A) d i s : (i < length ls)%nat -> In ((s + i)%nat, nth i ls d) (combine (seq s (length ls)) ls).
Proof.
  revert i s. induction ls as [|x ls IH]; intros i s H; [cbn in H; lia|]. cbn [length seq combine]. destruct i as [|i].
  - left. rewrite Nat.add_0_r. reflexivity.
  - right. cbn [nth]. replace (s + S i)%nat with (S s + i)%nat by lia. apply IH. cbn [length] in H. lia.
Qed.

Definition default_layer : slayer := {| l_width := 0; l_Nd := 0; l_Na := 0; l_profile := None |}.
(** Every mesh point of the junction lies in exactly one layer; its doping is that of the
    layer, taken at the depth below the front of that layer.  Points beyond get 0. *)
Theorem C69_doping ls mesh k : ls <> [] -> Forall (fun l => 0 <= l_width l) ls -> (k < length mesh)%nat ->
  length (doping_profile ls mesh) = length mesh /\
  (0 <= nth k mesh 0 <= total (widths_cm ls) ->
   exists i, holds (widths_cm ls) i (nth k mesh 0) /\ (forall j, holds (widths_cm ls) j (nth k mesh 0) -> j = i) /\
     nth k (doping_profile ls mesh) 0 = doping_fn (nth i ls default_layer) ((nth k mesh 0 - front (widths_cm ls) i) / 100)) /\
  (total (widths_cm ls) + / 10 ^ 10 <= nth k mesh 0 \/ nth k mesh 0 < 0 -> nth k (doping_profile ls mesh) 0 = 0).
Proof.
  intros Hne Fw Hk. set (w := widths_cm ls). assert (Lw : length w = length ls) by apply map_length.
  assert (F : Forall (fun y => 0 <= y) w).
  { apply Forall_forall. intros y I. apply in_map_iff in I. destruct I as (l & <- & I). rewrite Forall_forall in Fw. specialize (Fw l I). lra. }
  set (x := nth k mesh 0).
  assert (E : doping_profile ls mesh = map (fun p => fold_left (point (edges w) (fst p)) (combine (seq 0 (length ls)) ls) (snd p)) (combine mesh (repeat 0 (length mesh)))).
  { apply assign_points. rewrite repeat_length. reflexivity. }
  assert (Ek : nth k (doping_profile ls mesh) 0 = fold_left (point (edges w) x) (combine (seq 0 (length ls)) ls) 0).
  { rewrite E. set (f := fun p : R * R => fold_left (point (edges w) (fst p)) (combine (seq 0 (length ls)) ls) (snd p)).
    rewrite (nth_indep _ 0 (f (0, 0))) by (rewrite map_length, combine_length, repeat_length; lia).
    rewrite map_nth, combine_nth by (rewrite repeat_length; reflexivity). unfold f. cbn [fst snd]. fold x. f_equal.
    apply nth_repeat. }
  assert (Hids : map fst (combine (seq 0 (length ls)) ls) = seq 0 (length ls)) by (apply map_fst_combine; rewrite seq_length; reflexivity).
  assert (Hlt : forall il, In il (combine (seq 0 (length ls)) ls) -> (fst il < length w)%nat).
  { intros il I. apply (in_map fst) in I. rewrite Hids in I. apply in_seq in I. lia. }
  split; [rewrite E, map_length, combine_length, repeat_length; lia|]. split.
  - intros Hx. destruct (holds_exists w x F Hx) as (i & Hi); [rewrite Lw; destruct ls; [congruence|cbn; lia]|].
    exists i. split; [assumption|]. split; [intros j Hj; apply (holds_unique w x); assumption|]. rewrite Ek.
    assert (Hil : (i < length w)%nat) by apply Hi.
    rewrite (fold_point_hit (edges w) x _ 0 i (nth i ls default_layer)).
    + rewrite edges_nth by lia. replace (Nat.eqb i (length w)) with false by (symmetry; apply Nat.eqb_neq; lia). f_equal. lra.
    + rewrite Hids. apply seq_NoDup.
    + apply (in_enum ls default_layer i 0). lia.
    + apply in_layer_iff; [assumption|assumption|apply Hx|assumption].
    + intros il I N. apply not_true_is_false. intros C. apply in_layer_iff in C; [|assumption|apply Hlt, I|apply Hx].
      apply N. apply (holds_unique w x); assumption.
  - intros Hx. rewrite Ek. apply fold_point_miss. intros il I. apply not_true_is_false. intros C.
    unfold in_layer in C. apply andb_true_iff in C. rewrite le_b_iff, lt_b_iff in C. assert (Hi := Hlt il I).
    rewrite !edges_nth in C by lia. set (i := fst il) in *.
    assert (M0 := front_mono w 0 i F ltac:(lia)). change (front w 0) with 0 in M0.
    assert (M1 := front_mono w (i + 1) (length w) F ltac:(lia)). rewrite (front_full w (length w)) in M1 by lia.
    replace (Nat.eqb i (length w)) with false in C by (symmetry; apply Nat.eqb_neq; lia).
    assert (0 < / 10 ^ 10) by (apply Rinv_0_lt_compat; lra).
    destruct (Nat.eqb (i + 1) (length w)); destruct Hx; lra.
Qed.

(** * Junction depth *)

(** For layers with a constant doping the interfaces found are exactly those where the sign
    of the doping changes. *)
Lemma changes_spec l : forall s i, In i (changes s l) <-> (s <= i /\ S (i - s) < length l)%nat /\ nth (i - s) l 0%Z <> nth (S (i - s)) l 0%Z.
Proof.
  induction l as [|a [|b l] IH]; intros s i.
  - cbn. split; [tauto|]. intros ((_ & H) & _). lia.
  - cbn. split; [tauto|]. intros ((_ & H) & _). lia.
  - change (changes s (a :: b :: l)) with (if Z.eqb a b then changes (S s) (b :: l) else s :: changes (S s) (b :: l)).
    destruct (Nat.eq_dec i s) as [->|N].
    + rewrite Nat.sub_diag. cbn [nth length].
      assert (Hno : ~ In s (changes (S s) (b :: l))) by (rewrite IH; lia).
      destruct (Z.eqb a b) eqn:E; [apply Z.eqb_eq in E; subst; split; [intros I; contradiction|intros (_ & C); congruence]|].
      apply Z.eqb_neq in E. split; [intros _; split; [lia|assumption]|intros _; left; reflexivity].
    + assert (Hin : In i (if Z.eqb a b then changes (S s) (b :: l) else s :: changes (S s) (b :: l)) <-> In i (changes (S s) (b :: l))).
      { destruct (Z.eqb a b); [tauto|]. cbn [In]. split; [intros [E|E]; [congruence|assumption]|auto]. }
      rewrite Hin, IH. cbn [length]. destruct (Nat.le_gt_cases (S s) i) as [L|L].
      * replace (i - s)%nat with (S (i - S s)) by lia. cbn [nth]. split; intros ((A & B) & C); (split; [lia|exact C]).
      * split; intros ((A & B) & C); exfalso; lia.
Qed.

(** The sign of the doping just below the front of layer [i]. *)
Definition front_sign (ls : list slayer) (i : nat) : Z := sign (doping_fn (nth i ls default_layer) 0).

Lemma doping_signs_nth ls i : (i < length ls)%nat -> 
  nth i (doping_signs ls) 0%Z = sign (doping_fn (nth i ls default_layer) (front (widths_cm ls) i / 100)).
Proof.
  intros H. unfold doping_signs. assert (Lw : length (widths_cm ls) = length ls) by apply map_length.
  set (f := fun p : slayer * R => sign (doping_fn (fst p) (snd p / 100))).
  assert (G : forall (l : list slayer) (m : list R) i, (i < length l)%nat -> (i < length m)%nat -> nth i (map f (combine l m)) 0%Z = f (nth i l default_layer, nth i m 0)).
  { induction l as [|a l IH]; intros [|b m] j A B; cbn [length] in A, B; try lia. destruct j as [|j]; [reflexivity|]. cbn. apply IH; lia. }
  rewrite G by (rewrite ?edges_length; lia). unfold f. cbn [fst snd]. rewrite edges_nth by lia.
  replace (Nat.eqb i (length (widths_cm ls))) with false by (symmetry; apply Nat.eqb_neq; lia). f_equal. f_equal. lra.
Qed.
Lemma doping_signs_length ls : length (doping_signs ls) = length ls.
Proof. unfold doping_signs. rewrite map_length, combine_length, edges_length. unfold widths_cm. rewrite map_length. lia. Qed.

Theorem C114_partial ls d : (forall l, In l ls -> l_profile l = None) ->
  (In d (junction_depth ls) <-> exists i, (S i < length ls)%nat /\ front_sign ls i <> front_sign ls (S i) /\ d = front (widths_cm ls) (S i)).
Proof.
  intros Hc. assert (Lw : length (widths_cm ls) = length ls) by apply map_length.
  assert (Hs : forall i, (i < length ls)%nat -> nth i (doping_signs ls) 0%Z = front_sign ls i).
  { intros i Hi. rewrite doping_signs_nth by assumption. unfold front_sign, doping_fn. rewrite Hc by (apply nth_In; assumption). reflexivity. }
  unfold junction_depth. rewrite in_map_iff. split.
  - intros (i & <- & I). apply changes_spec in I. rewrite Nat.sub_0_r, doping_signs_length in I. destruct I as ((_ & A) & B).
    rewrite !Hs in B by lia. exists i. split; [assumption|]. split; [assumption|]. rewrite edges_nth by lia.
    replace (Nat.eqb (i + 1) (length (widths_cm ls))) with false by (symmetry; apply Nat.eqb_neq; lia). replace (i + 1)%nat with (S i) by lia. lra.
  - intros (i & A & B & ->). exists i. split.
    + rewrite edges_nth by lia. replace (Nat.eqb (i + 1) (length (widths_cm ls))) with false by (symmetry; apply Nat.eqb_neq; lia).
      replace (i + 1)%nat with (S i) by lia. lra.
    + apply changes_spec. rewrite Nat.sub_0_r, doping_signs_length. split; [lia|]. rewrite !Hs by lia. exact B.
Qed.

(** With doping profiles per layer the sign is taken at the wrong depth: a p layer of 2 um
    on an n layer whose profile turns p-type 1 um below its own front.  The doping just
    below the interface is positive, just above it negative, and no junction is found. *)
Definition ex_layers : list slayer :=
  [{| l_width := 2 / 10 ^ 6; l_Nd := 0; l_Na := 10 ^ 23; l_profile := None |};
   {| l_width := 2 / 10 ^ 6; l_Nd := 0; l_Na := 0; l_profile := Some (fun x => 10 ^ 23 * (1 - x * 10 ^ 6)) |}].
Theorem C114_refuted : exists ls i, (S i < length ls)%nat /\ front_sign ls i = (-1)%Z /\ front_sign ls (S i) = 1%Z /\ junction_depth ls = [].
Proof.
  exists ex_layers, 0%nat. split; [cbn; lia|]. 
  assert (S1 : front_sign ex_layers 0 = (-1)%Z).
  { unfold front_sign, doping_fn. cbn [nth ex_layers l_profile l_Na l_Nd]. destruct (Rlt_dec _ _); [lra|]. unfold sign. destruct (Rlt_dec _ _); [lra|].
    destruct (Rlt_dec _ _); [reflexivity|lra]. }
  split; [exact S1|]. split.
  { unfold front_sign, doping_fn. cbn [nth ex_layers l_profile l_Na l_Nd]. unfold sign. destruct (Rlt_dec _ _); [reflexivity|lra]. }
  assert (E : doping_signs ex_layers = [(-1)%Z; (-1)%Z]).
  { assert (E0 : nth 0 (doping_signs ex_layers) 0%Z = (-1)%Z).
    { rewrite doping_signs_nth by (cbn; lia). unfold front_sign, doping_fn in *. cbn [nth ex_layers l_profile l_Na l_Nd] in *. exact S1. }
    assert (E1 : nth 1 (doping_signs ex_layers) 0%Z = (-1)%Z).
    { rewrite doping_signs_nth by (cbn; lia). unfold doping_fn. cbn [nth ex_layers l_profile]. unfold front. cbn [widths_cm ex_layers map l_width firstn total].
      unfold sign. destruct (Rlt_dec _ _); [lra|]. destruct (Rlt_dec _ _); [reflexivity|lra]. }
    assert (L := doping_signs_length ex_layers). destruct (doping_signs ex_layers) as [|a [|b [|c l]]]; try discriminate. cbn in E0, E1. subst. reflexivity. }
  unfold junction_depth. rewrite E. reflexivity.
Qed.
Example C114_example : exists d, In d (junction_depth
  [{| l_width := 2 / 10 ^ 6; l_Nd := 0; l_Na := 10 ^ 23; l_profile := None |};
   {| l_width := 3 / 10 ^ 6; l_Nd := 10 ^ 22; l_Na := 0; l_profile := None |}]).
Proof.
  eexists. apply C114_partial.
  - intros l [<-|[<-|[]]]; reflexivity.
  - exists 0%nat. split; [cbn; lia|]. split; [|reflexivity]. unfold front_sign, doping_fn. cbn [nth l_profile l_Na l_Nd].
    destruct (Rlt_dec _ _); [lra|]. destruct (Rlt_dec _ _); [|lra]. unfold sign. destruct (Rlt_dec _ _); [lra|]. destruct (Rlt_dec _ _); [|lra].
    destruct (Rlt_dec _ _); [discriminate|lra].
Qed.
Example C69_example : exists i, holds (widths_cm ex_layers) i (2 / 10 ^ 4) /\
  nth 1 (doping_profile ex_layers [1 / 10 ^ 4; 2 / 10 ^ 4; 4 / 10 ^ 4]) 0 = doping_fn (nth i ex_layers default_layer) ((2 / 10 ^ 4 - front (widths_cm ex_layers) i) / 100) /\ i = 1%nat.
Proof.
  destruct (C69_doping ex_layers [1 / 10 ^ 4; 2 / 10 ^ 4; 4 / 10 ^ 4] 1) as (_ & H & _).
  - discriminate.
  - repeat constructor; cbn [l_width]; lra.
  - cbn. lia.
  - destruct H as (i & Hi & Hu & E).
    + cbn [nth widths_cm ex_layers map l_width total]. lra.
    + exists i. split; [exact Hi|]. split; [exact E|]. symmetry. apply Hu. cbn [nth]. unfold holds, front. cbn [widths_cm ex_layers map l_width firstn total length].
      split; [lia|]. split; [lra|]. left. lra.
Qed.

(** * Net doping *)
(** The doping handed to Sesame is donors minus acceptors wherever one of the two is absent. *)
Theorem C116_partial l x : l_profile l = None -> 0 <= l_Nd l -> 0 <= l_Na l -> l_Nd l = 0 \/ l_Na l = 0 ->
  doping_fn l x = (l_Nd l - l_Na l) / 10 ^ 6.
Proof.
  intros E Hd Ha H. unfold doping_fn. rewrite E. destruct (Rlt_dec _ _); destruct H as [H|H]; try (rewrite H; lra); lra.
Qed.
(** In a compensated layer the minority dopant is ignored. *)
Theorem C116_refuted : exists l, l_profile l = None /\ 0 < l_Na l < l_Nd l /\ forall x, doping_fn l x <> (l_Nd l - l_Na l) / 10 ^ 6.
Proof.
  exists {| l_width := 1; l_Nd := 2 * 10 ^ 23; l_Na := 10 ^ 23; l_profile := None |}. cbn [l_profile l_Na l_Nd]. split; [reflexivity|]. split; [lra|].
  intros x. unfold doping_fn. cbn [l_profile l_Na l_Nd]. destruct (Rlt_dec _ _); lra.
Qed.
Example C116_example : exists l, l_profile l = None /\ 0 <= l_Nd l /\ 0 <= l_Na l /\ l_Nd l = 0 /\ doping_fn l 0 < 0.
Proof.
  exists {| l_width := 1; l_Nd := 0; l_Na := 10 ^ 23; l_profile := None |}. cbn [l_profile l_Na l_Nd]. split; [reflexivity|]. split; [lra|]. split; [lra|]. split; [reflexivity|].
  rewrite C116_partial; cbn [l_profile l_Na l_Nd]; auto; lra.
Qed.

(** * Surface recombination *)
Inductive region := N_type | P_type.
Inductive carrier := Electron | Hole.
(** The junction's velocity (m/s) for a carrier at the surface of a region: the specific
    attribute, else that of the region, else 100 m/s. *)
Definition velocity (a : srv_attr) (r : region) (c : carrier) : R :=
  let special := match r, c with
                 | N_type, Electron => sn_e a | N_type, Hole => sn_h a
                 | P_type, Electron => sp_e a | P_type, Hole => sp_h a end in
  let general := match r with N_type => sn a | P_type => sp a end in
  match special, general with Some v, _ => v | None, Some v => v | None, None => 100 end.
(** Sesame takes cm/s: front electrons, front holes, back electrons, back holes.  The region
    at the back is p-type when the doping of the last mesh point is negative; the front is
    taken to be of the other type. *)
Theorem C117_srv rho a back frontr : 
  (at_ rho (length rho - 1) < 0 -> back = P_type /\ frontr = N_type) ->
  (0 <= at_ rho (length rho - 1) -> back = N_type /\ frontr = P_type) ->
  get_srv rho a = (100 * velocity a frontr Electron, 100 * velocity a frontr Hole, 100 * velocity a back Electron, 100 * velocity a back Hole).
Proof.
  intros H1 H2. unfold get_srv, p_at_back, lt_b. 
  assert (G : forall s g, srv s g = 100 * (match s, g with Some v, _ => v | None, Some v => v | None, None => 100 end)).
  { intros [v|] [w|]; cbn [srv]; lra. }
  rewrite !G. destruct (Rlt_dec _ 0) as [L|L].
  - destruct (H1 L) as [-> ->]. reflexivity.
  - destruct (H2 ltac:(lra)) as [-> ->]. reflexivity.
Qed.
Example C117_example : get_srv [1; -1] {| sn := Some 5; sp := None; sn_e := None; sn_h := Some 7; sp_e := None; sp_h := Some 3 |}
  = (500, 700, 10000, 300).
Proof.
  rewrite (C117_srv _ _ P_type N_type); [|intros _; auto|cbn; intros; lra]. unfold velocity. cbn. repeat f_equal; lra.
Qed.

(** * Material constants *)
(** The lifetime calculated from a diffusion length is the one that gives this length. *)
Theorem C118_lifetime mat mat' c mu tau T L : 0 < mu -> 0 < T -> 0 <= tau ->
  mat (append c "_mobility") = Ok mu -> mat "T"%string = Ok T -> mat (append c "_minority_lifetime") = Ok tau ->
  diffusion_length_of mat c = Ok L ->
  mat' (append c "_mobility") = Ok mu -> mat' "T"%string = Ok T -> mat' (append c "_diffusion_length") = Ok L ->
  L * L = kb * T / q * mu * tau /\ lifetime_of mat' c = Ok tau.
Proof.
  intros Hmu HT Ht E1 E2 E3 EL F1 F2 F3. unfold diffusion_length_of in EL. rewrite E1, E2, E3 in EL. cbn [bindR] in EL.
  assert (EL' : L = sqrt (kb * T * mu * tau / q)) by congruence. clear EL. assert (Hk := kb_pos). assert (Hq := q_pos).
  assert (P : 0 <= kb * T * mu * tau / q).
  { apply Rmult_le_pos; [|left; apply Rinv_0_lt_compat; lra]. repeat apply Rmult_le_pos; lra. }
  assert (S : L * L = kb * T * mu * tau / q) by (rewrite EL'; apply sqrt_sqrt, P).
  split; [rewrite S; field; lra|]. unfold lifetime_of. rewrite F1, F2, F3. cbn [bindR]. f_equal.
  replace (L ^ 2) with (L * L) by ring. rewrite S. field. repeat split; lra.
Qed.

(** The dictionary handed to Sesame for a material: units, and the fall-backs when an
    attribute is unknown (ValueError). *)
Definition entry (d : list (string * R)) (k : string) : option R :=
  match find (fun p => String.eqb (fst p) k) d with Some p => Some (snd p) | None => None end.
Theorem C118_material mat d : get_material_parameters mat = Ok d ->
  (forall v, mat "electron_minority_lifetime"%string = Ok v -> entry d "tau_e" = Some v) /\
  (mat "electron_minority_lifetime"%string = Err ValueError -> exists v, lifetime_of mat "electron" = Ok v /\ entry d "tau_e" = Some v) /\
  (forall v, mat "hole_minority_lifetime"%string = Ok v -> entry d "tau_h" = Some v) /\
  (mat "hole_minority_lifetime"%string = Err ValueError -> exists v, lifetime_of mat "hole" = Ok v /\ entry d "tau_h" = Some v) /\
  (forall v, mat "bulk_recombination_energy"%string = Ok v -> entry d "Et" = Some (v / q)) /\
  (mat "bulk_recombination_energy"%string = Err ValueError -> entry d "Et" = Some 0) /\
  (mat "electron_auger_recombination"%string = Err ValueError -> entry d "Cn" = Some 0) /\
  (forall v, mat "electron_auger_recombination"%string = Ok v -> entry d "Cn" = Some (v * 10 ^ 12)) /\
  (mat "hole_auger_recombination"%string = Err ValueError -> entry d "Cp" = Some 0) /\
  (forall v, mat "hole_auger_recombination"%string = Ok v -> entry d "Cp" = Some (v * 10 ^ 12)) /\
  (exists eg af ep me mh b nc nv, 
    mat "band_gap"%string = Ok eg /\ mat "electron_affinity"%string = Ok af /\ mat "relative_permittivity"%string = Ok ep /\
    mat "electron_mobility"%string = Ok me /\ mat "hole_mobility"%string = Ok mh /\ mat "radiative_recombination"%string = Ok b /\
    mat "Nc"%string = Ok nc /\ mat "Nv"%string = Ok nv /\
    entry d "Eg" = Some (eg / q) /\ entry d "affinity" = Some (af / q) /\ entry d "epsilon" = Some ep /\
    entry d "mu_e" = Some (me * 10 ^ 4) /\ entry d "mu_h" = Some (mh * 10 ^ 4) /\ entry d "B" = Some (b * 10 ^ 6) /\
    entry d "Nc" = Some (nc / 10 ^ 6) /\ entry d "Nv" = Some (nv / 10 ^ 6)).
Proof.
  unfold get_material_parameters. intros H.
  assert (B : forall A (r : res A) (k : A -> res (list (string * R))), bindR r k = Ok d -> exists x, r = Ok x /\ k x = Ok d).
  { intros A [x|e] k Hk; [exists x; auto|discriminate]. }
  repeat match type of H with bindR _ _ = Ok d => apply B in H; destruct H as (? & ?E & H) end.
  apply (f_equal (fun r => match r with Ok y => y | Err _ => [] end)) in H. cbv beta iota in H. subst d.
  split; [intros v Hv; rewrite Hv in *; cbn [on_value_error bindR] in *; unfold entry; cbn [find fst snd String.eqb Ascii.eqb Bool.eqb]; congruence|].
  split; [intros Hv; rewrite Hv in *; cbn [on_value_error bindR] in *; eexists; split; [eassumption|reflexivity]|].
  split; [intros v Hv; rewrite Hv in *; cbn [on_value_error bindR] in *; unfold entry; cbn [find fst snd String.eqb Ascii.eqb Bool.eqb]; congruence|].
  split; [intros Hv; rewrite Hv in *; cbn [on_value_error bindR] in *; eexists; split; [eassumption|reflexivity]|].
  do 6 (split; [intros; match goal with Hv : mat _ = _ |- _ => rewrite Hv in *; cbn [on_value_error bindR] in *; unfold entry; cbn [find fst snd String.eqb Ascii.eqb Bool.eqb]; congruence end|]).
  do 8 eexists. do 8 (split; [eassumption|]). repeat split.
Qed.
Definition ex_mat (k : string) : res R :=
  if String.eqb k "electron_minority_lifetime" then Err ValueError
  else if String.eqb k "electron_auger_recombination" then Err ValueError
  else Ok 2.
Example C118_example : exists d, get_material_parameters ex_mat = Ok d /\ entry d "Cn" = Some 0 /\ entry d "tau_h" = Some 2.
Proof. eexists. split; [reflexivity|]. split; reflexivity. Qed.

(** * Quantum efficiency *)
Section QE.
Context {Sol : Type} (solve : nat -> option Sol -> R * Sol).

(** The calls for wavelengths [is] in this order, each with the solution of the one before
    as its guess. *)
Fixpoint chain (is : list nat) (g : option Sol) : list (nat * option Sol) :=
  match is with [] => [] | i :: is' => (i, g) :: chain is' (Some (snd (solve i g))) end.

Lemma nth_set (l : list R) i x k : (i < length l)%nat -> nth k (firstn i l ++ x :: skipn (S i) l) 0 = if Nat.eqb k i then x else nth k l 0.
Proof.
  revert i k. induction l as [|y l IH]; intros i k H; [cbn in H; lia|]. destruct i as [|i]; destruct k as [|k]; try reflexivity.
  cbn [firstn app skipn nth Nat.eqb]. cbn [length] in H. apply IH. lia.
Qed.
Lemma set_length (l : list R) i x : (i < length l)%nat -> length (firstn i l ++ x :: skipn (S i) l) = length l.
Proof. intros H. rewrite app_length, firstn_length. cbn [length]. rewrite skipn_length. lia. Qed.

Lemma qe_loop_spec is : forall g eqe tr, NoDup is -> (forall i, In i is -> (i < length eqe)%nat) ->
  let (eqe', tr') := qe_loop solve is g eqe tr in
  length eqe' = length eqe /\ tr' = tr ++ chain is g /\
  (forall i, ~ In i is -> nth i eqe' 0 = nth i eqe 0) /\
  (forall i, In i is -> exists gi, In (i, gi) (chain is g) /\ nth i eqe' 0 = Rabs (fst (solve i gi)) / (q * 10 ^ 20)).
Proof.
  induction is as [|i is IH]; intros g eqe tr N B; cbn [qe_loop chain].
  - split; [reflexivity|]. split; [symmetry; apply app_nil_r|]. split; [reflexivity|]. intros i [].
  - inversion N as [|? ? N1 N2]; subst. assert (Hi : (i < length eqe)%nat) by (apply B; left; reflexivity).
    destruct (solve i g) as [j sol] eqn:Es. set (e1 := firstn i eqe ++ _). assert (L1 : length e1 = length eqe) by (apply set_length; assumption).
    specialize (IH (Some sol) e1 (tr ++ [(i, g)]) N2). rewrite L1 in IH. specialize (IH (fun k K => B k (or_intror K))).
    destruct (qe_loop solve is (Some sol) e1 (tr ++ [(i, g)])) as [eqe' tr']. destruct IH as (A1 & A2 & A3 & A4). cbn [snd].
    split; [assumption|]. split; [rewrite A2, <- app_assoc; reflexivity|]. split.
    + intros k Hk. rewrite A3 by (intros K; apply Hk; right; assumption). unfold e1. rewrite nth_set by assumption.
      destruct (Nat.eqb k i) eqn:E; [|reflexivity]. apply Nat.eqb_eq in E. subst. exfalso. apply Hk. left. reflexivity.
    + intros k [<-|K].
      * exists g. split; [left; reflexivity|]. rewrite A3 by assumption. unfold e1. rewrite nth_set, Nat.eqb_refl, Es by assumption. reflexivity.
      * destruct (A4 k K) as (gi & I & E). exists gi. split; [right; assumption|assumption].
Qed.

Lemma wl_solve_in A i : In i (wl_solve A) <-> (i < length A)%nat /\ / 10 ^ 5 <= at_ A i.
Proof. unfold wl_solve. rewrite <- in_rev, filter_In, in_seq, le_b_iff. split; intros (H1 & H2); split; (lia || assumption). Qed.
Lemma wl_solve_nodup A : NoDup (wl_solve A).
Proof. apply NoDup_rev, NoDup_filter, seq_NoDup. Qed.

(** Wavelengths with an absorptance below 1e-5 are not solved and have efficiency 0; the
    others are solved once each, from the last to the first, each starting from the solution
    of the one before.  The internal efficiency times the absorptance is the external one. *)
Theorem C119_qe A scale eqe iqe tr : qe_sesame solve A scale = (eqe, iqe, tr) ->
  length eqe = length A /\ length iqe = length A /\
  tr = chain (wl_solve A) None /\ StronglySorted (fun a b => (b < a)%nat) (wl_solve A) /\
  (forall i, (i < length A)%nat -> at_ A i < / 10 ^ 5 -> at_ eqe i = 0 /\ at_ iqe i = 0 /\ ~ exists g, In (i, g) tr) /\
  (forall i, (i < length A)%nat -> / 10 ^ 5 <= at_ A i -> 
     (exists g, In (i, g) tr /\ at_ eqe i = Rabs (fst (solve i g)) / (q * 10 ^ 20) * scale) /\ at_ iqe i * at_ A i = at_ eqe i).
Proof.
  intros H. unfold qe_sesame in H. assert (Sp := qe_loop_spec (wl_solve A) None (repeat 0 (length A)) [] (wl_solve_nodup A)).
  rewrite repeat_length in Sp. specialize (Sp (fun i I => proj1 (proj1 (wl_solve_in A i) I))).
  destruct (qe_loop solve (wl_solve A) None (repeat 0 (length A)) []) as [e0 t0]. destruct Sp as (L0 & T0 & Z0 & V0). cbn [app] in T0.
  set (f := fun p : R * R => if Rlt_dec 0 (snd p) then fst p / snd p else 0) in H.
  assert (He : eqe = map (fun e => e * scale) e0) by congruence. assert (Hi : iqe = map f (combine eqe A)) by congruence. assert (Ht : tr = t0) by congruence. clear H.
  assert (Le : length eqe = length A) by (rewrite He, map_length; assumption).
  assert (En : forall i, (i < length A)%nat -> at_ eqe i = at_ e0 i * scale).
  { intros i Hl. rewrite He. rewrite (nth_indep _ 0 (0 * scale)) by (rewrite map_length; lia). apply (map_nth (fun e => e * scale)). }
  assert (Qn : forall i, (i < length A)%nat -> at_ iqe i = f (at_ eqe i, at_ A i)).
  { intros i Hl. rewrite Hi. rewrite (nth_indep _ 0 (f (0, 0))) by (rewrite map_length, combine_length; lia). rewrite map_nth, combine_nth by assumption. reflexivity. }
  split; [assumption|]. split; [rewrite Hi, map_length, combine_length; lia|]. split; [congruence|]. split; [|split].
  - unfold wl_solve. assert (G : forall l m : list nat, StronglySorted (fun a b => (b < a)%nat) l -> StronglySorted (fun a b => (b < a)%nat) m ->
      (forall a b, In a l -> In b m -> (b < a)%nat) -> StronglySorted (fun a b => (b < a)%nat) (l ++ m)).
    { induction l as [|x l IH]; intros m S1 S2 Hlm; [assumption|]. inversion S1 as [|? ? S3 S4]; subst. cbn. constructor.
      - apply IH; auto. intros a b Ia Ib. apply Hlm; [right|]; assumption.
      - apply Forall_app. split; [assumption|]. apply Forall_forall. intros b Ib. apply Hlm; [left; reflexivity|assumption]. }
    assert (W : forall p n s, StronglySorted (fun a b => (b < a)%nat) (rev (filter p (seq s n)))); [intros p|apply W].
    induction n as [|n IH]; intros s; [constructor|]. cbn [seq filter]. destruct (p s); [|apply IH].
    cbn [rev]. apply G; [apply IH|repeat constructor|]. intros a b Ia [<-|[]]. apply in_rev in Ia. apply filter_In in Ia. destruct Ia as [Ia _]. apply in_seq in Ia. lia.
  - intros i Hl HA. assert (Hn : ~ In i (wl_solve A)). { rewrite wl_solve_in. intros [_ C]. lra. }
    assert (E0 : at_ eqe i = 0). { rewrite En, Z0 by assumption. rewrite nth_repeat. lra. }
    split; [assumption|]. split.
    + rewrite Qn, E0 by assumption. unfold f. cbn [fst snd]. destruct (Rlt_dec _ _); [unfold Rdiv; lra|reflexivity].
    + intros (g & I). rewrite Ht, T0 in I. apply Hn. clear - I. revert I. generalize (@None Sol) as g0. induction (wl_solve A) as [|k l IH]; intros g0 I; [destruct I|].
      cbn [chain] in I. destruct I as [E|I]; [left; congruence|right; eapply IH; eassumption].
  - intros i Hl HA. split.
    + destruct (V0 i) as (g & I & E); [apply wl_solve_in; auto|]. exists g. rewrite Ht, T0. split; [assumption|]. rewrite En, E by assumption. reflexivity.
    + assert (0 < / 10 ^ 5) by lra. rewrite Qn by assumption. unfold f. cbn [fst snd]. destruct (Rlt_dec _ _); [field; lra|lra].
Qed.
End QE.
Example C119_example : exists eqe iqe tr, qe_sesame (fun i (g : option nat) => (- INR i, i)) [1; 0; 1 / 2] 3 = (eqe, iqe, tr) /\ 
  exists g, In (0%nat, g) tr /\ g = Some 2%nat.
Proof.
  destruct (qe_sesame (fun i (g : option nat) => (- INR i, i)) [1; 0; 1 / 2] 3) as [[eqe iqe] tr] eqn:E. exists eqe, iqe, tr. split; [reflexivity|].
  destruct (C119_qe _ _ _ _ _ _ E) as (_ & _ & -> & _). exists (Some 2%nat). split; [|reflexivity].
  assert (W : wl_solve [1; 0; 1 / 2] = [2; 0]%nat).
  { unfold wl_solve. cbn [length seq filter nth]. unfold le_b.
    destruct (Rle_dec (/ 10 ^ 5) 1); [|exfalso; lra]. destruct (Rle_dec (/ 10 ^ 5) 0); [exfalso; lra|]. destruct (Rle_dec (/ 10 ^ 5) (1 / 2)); [|exfalso; lra]. reflexivity. }
  rewrite W. cbn. auto.
Qed.

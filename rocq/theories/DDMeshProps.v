(** Properties C138 and C139: the mesh of the drift-diffusion module and the data of its nodes. *)
From Coq Require Import Reals List Bool Lia Lra Arith Sorted.
From Verif Require Import Common NumModel DDMeshModel.
From Coq Require Import List.
Import ListNotations.
Open Scope R_scope.

(** Sums, and relations between neighbours of a list. *)
Definition total (l : list R) : R := fold_right Rplus 0 l.
Fixpoint adj (P : R -> R -> Prop) (l : list R) : Prop :=
  match l with x :: ((y :: _) as r) => P x y /\ adj P r | _ => True end.

Lemma total_app l m : total (l ++ m) = total l + total m.
Proof. unfold total. induction l as [|x l IH]; cbn [app fold_right]; [ring|rewrite IH; ring]. Qed.
Lemma total_repeat a k : total (repeat a k) = INR k * a.
Proof. unfold total. induction k as [|k IH]; [cbn; ring|]. cbn [repeat fold_right]. rewrite IH, S_INR. ring. Qed.
Lemma total_nonneg l : Forall (fun i => 0 < i) l -> 0 <= total l.
Proof. unfold total. induction 1; cbn [fold_right]; lra. Qed.
Lemma adj_app P l x m : adj P (l ++ [x]) -> adj P (x :: m) -> adj P (l ++ x :: m).
Proof.
  induction l as [|a l IH]; intros A B; [exact B|]. destruct l as [|b l].
  - cbn [app] in *. cbn [adj] in A. destruct A as [A _]. split; [exact A|exact B].
  - cbn [app] in *. cbn [adj] in A. destruct A as [A A']. split; [exact A|]. apply IH; assumption.
Qed.
Lemma adj_impl (P Q : R -> R -> Prop) l : (forall x y, In x l -> In y l -> P x y -> Q x y) -> adj P l -> adj Q l.
Proof.
  induction l as [|a l IH]; intros H A; [exact I|]. destruct l as [|b l]; [exact I|]. cbn [adj] in *. destruct A as [A A'].
  split; [apply H; [now left|right; now left|exact A]|]. apply IH; [|exact A']. intros x y Ix Iy. apply H; right; assumption.
Qed.
Lemma adj_nth P l i : adj P l -> (S i < length l)%nat -> P (nth i l 0) (nth (S i) l 0).
Proof.
  revert i. induction l as [|a l IH]; intros i A L; [cbn in L; lia|]. destruct l as [|b l]; [cbn in L; lia|]. cbn [adj] in A. destruct A as [A A'].
  destruct i as [|i]; [exact A|]. apply (IH i A'). cbn [length] in *. lia.
Qed.

(** The increments of an interval. *)
Lemma cells_spec len h : 0 < len -> 0 < h -> (1 <= cells len h)%nat /\ 0 < len / INR (cells len h - 1 + 1) <= h.
Proof.
  intros Pl Ph. unfold cells. pose proof (Rceil_spec (len / h)) as [C1 C2]. assert (Pq : 0 < len / h) by now apply Rdiv_lt_0_compat.
  assert (Zp : (0 < Rceil (len / h))%Z) by (apply lt_IZR; lra). set (k := Z.to_nat (Rceil (len / h))).
  assert (Ek : INR k = IZR (Rceil (len / h))) by (unfold k; rewrite INR_IZR_INZ, Z2Nat.id by lia; reflexivity).
  assert (Lk : (1 <= k)%nat) by (unfold k; lia). split; [exact Lk|]. replace (k - 1 + 1)%nat with k by lia.
  assert (Pk : 0 < INR k) by (apply lt_0_INR; lia). split; [now apply Rdiv_lt_0_compat|].
  apply (Rmult_le_reg_r (INR k)); [exact Pk|]. unfold Rdiv at 1. rewrite Rmult_assoc, Rinv_l, Rmult_1_r by lra. rewrite <- Ek in C2.
  apply (Rmult_le_compat_l h) in C2; [|lra]. replace (h * (len / h)) with len in C2 by (field; lra). exact C2.
Qed.
Section Steps.
Context (coarse fine ultra len : R) (Pl : 0 < len) (Pu : 0 < ultra) (Pf : 0 < fine) (Fc : fine < coarse).
Notation lc := (lc coarse len). Notation delta := (delta coarse len). Notation lf := (lf coarse fine len). Notation deltaF := (deltaF coarse fine len).
Notation lu := (lu coarse fine ultra len). Notation deltaUF := (deltaUF coarse fine ultra len).
Lemma delta_spec : 0 < delta <= coarse.
Proof. apply cells_spec; lra. Qed.
Lemma deltaF_spec : 0 < deltaF <= fine.
Proof. apply cells_spec; [apply delta_spec|lra]. Qed.
Lemma deltaUF_spec : 0 < deltaUF <= ultra.
Proof. apply cells_spec; [apply deltaF_spec|lra]. Qed.
Definition small : R := if Rlt_dec ultra fine then ultra else fine.
Definition last_step : R := if Rlt_dec ultra fine then deltaUF else deltaF.
Lemma last_step_spec : 0 < last_step <= small.
Proof. unfold last_step, small. destruct (Rlt_dec ultra fine); [apply deltaUF_spec|apply deltaF_spec]. Qed.
Lemma small_coarse : small < coarse.
Proof. unfold small. destruct (Rlt_dec ultra fine); lra. Qed.
(** All the increments, with the one that leads to the next master node. *)
Definition all_steps : list R :=
  head_steps coarse fine ultra len ++ mid_steps coarse len ++
  (let '(t, fresh) := tail_steps coarse fine ultra len in if fresh then t ++ [last_step] else t).
Lemma INR1 k : INR (k + 1) = INR k + 1.
Proof. rewrite plus_INR. reflexivity. Qed.
Lemma deltas : INR (lc + 1) * delta = len /\ INR (lf + 1) * deltaF = delta /\ INR (lu + 1) * deltaUF = deltaF.
Proof.
  unfold DDMeshModel.delta at 1, DDMeshModel.deltaF at 1, DDMeshModel.deltaUF.
  assert (N : forall k, INR (k + 1) <> 0) by (intros k; apply not_0_INR; lia). repeat split; field; apply N.
Qed.
Lemma first_total : total (if Rlt_dec ultra fine then repeat deltaUF (lu + 1) else [deltaF]) = deltaF.
Proof. destruct (Rlt_dec ultra fine); [rewrite total_repeat; apply deltas|cbn; ring]. Qed.
Lemma total_one x : total [x] = x.
Proof. cbn. ring. Qed.
Lemma ultra_total : total (ultra_tail coarse fine ultra len) + total [last_step] = deltaF.
Proof.
  unfold ultra_tail, last_step. destruct deltas as (_ & _ & D). rewrite INR1 in D. destruct (Rlt_dec ultra fine); rewrite total_one; [|cbn; ring].
  rewrite total_repeat. lra.
Qed.
Lemma all_total : total all_steps = len.
Proof.
  unfold all_steps, head_steps, mid_steps, tail_steps, extra. destruct (Rlt_dec fine coarse) as [_|]; [|lra]. destruct deltas as (D1 & D2 & _). rewrite INR1 in D1, D2.
  pose proof ultra_total as U. destruct (Nat.eqb_spec lc 0) as [E|N]; cbn [negb].
  - rewrite E in *. destruct (Nat.eqb_spec lf 0) as [E'|N']; cbn [negb].
    + rewrite E' in *. cbn [Nat.add Nat.sub repeat app]. rewrite !app_nil_r, first_total. cbn [INR] in *. lra.
    + cbn [Nat.sub repeat app]. rewrite !total_app, first_total, total_repeat. replace (lf + 0 - 1)%nat with (lf - 1)%nat by lia. rewrite minus_INR by lia. cbn [INR] in *. lra.
  - rewrite !total_app, first_total, !total_repeat. replace (lf + 1 - 1)%nat with lf by lia. rewrite minus_INR by lia. cbn [INR].
    assert (X : (INR lc - 1) * delta = len - 2 * delta) by lra. rewrite X. lra.
Qed.
Lemma Forall_repeat (P : R -> Prop) a k : P a -> Forall P (repeat a k).
Proof. intros H. induction k; cbn; constructor; assumption. Qed.
Lemma all_bounds : Forall (fun i => 0 < i <= coarse) all_steps.
Proof.
  pose proof delta_spec as A. pose proof deltaF_spec as B. pose proof deltaUF_spec as C. pose proof last_step_spec as D. pose proof small_coarse as E.
  assert (U : Forall (fun i => 0 < i <= coarse) (ultra_tail coarse fine ultra len)) by (unfold ultra_tail; destruct (Rlt_dec ultra fine); [apply Forall_repeat; lra|constructor]).
  unfold all_steps, head_steps, mid_steps, tail_steps. destruct (Rlt_dec fine coarse); [|lra]. rewrite !Forall_app. split; [split|split].
  - destruct (Rlt_dec ultra fine); [apply Forall_repeat; lra|constructor; [lra|constructor]].
  - apply Forall_repeat. lra.
  - apply Forall_repeat. lra.
  - destruct (negb _); [|destruct (negb _)]; [| |constructor]; rewrite !Forall_app; repeat split; try exact U; try (apply Forall_repeat; lra); constructor; [lra|constructor|lra|constructor].
Qed.
Lemma all_hd : hd 0 all_steps <= small /\ all_steps <> [].
Proof.
  pose proof deltaF_spec as B. pose proof deltaUF_spec as C.
  unfold all_steps, head_steps, small. destruct (Rlt_dec fine coarse); [|lra]. destruct (Rlt_dec ultra fine); [|cbn; split; [lra|discriminate]].
  replace (lu + 1)%nat with (S lu) by lia. cbn. split; [lra|discriminate].
Qed.
Lemma all_last : last all_steps 0 <= small.
Proof.
  pose proof last_step_spec as D. unfold all_steps, tail_steps. destruct (Rlt_dec fine coarse); [|lra].
  destruct (Nat.eqb_spec lc 0) as [E|N]; cbn [negb].
  - destruct (Nat.eqb_spec lf 0) as [E'|N']; cbn [negb].
    + unfold head_steps, mid_steps, extra. destruct (Rlt_dec fine coarse); [|lra]. rewrite E, E'. cbn [Nat.eqb Nat.add Nat.sub repeat]. rewrite !app_nil_r.
      unfold last_step in D. destruct (Rlt_dec ultra fine); [|cbn [last]; lra]. replace (lu + 1)%nat with (S lu) by lia. cbn [repeat]. rewrite repeat_cons, last_last. lra.
    + rewrite !app_assoc, last_last. lra.
  - rewrite !app_assoc, last_last. lra.
Qed.
End Steps.

Lemma walk_snoc x l i : walk x (l ++ [i]) = walk x l ++ [x + total l + i].
Proof.
  revert x. induction l as [|j l IH]; intros x; cbn [app walk]; [unfold total; cbn [fold_right]; rewrite Rplus_0_r; reflexivity|].
  rewrite IH. unfold total. cbn [fold_right]. rewrite <- (Rplus_assoc x j). reflexivity.
Qed.
Lemma walk_last x l : walk x l = removelast (walk x l) ++ [x + total l].
Proof.
  revert x. induction l as [|j l IH]; intros x; [cbn; now rewrite Rplus_0_r|]. cbn [walk].
  assert (E : removelast (x :: walk (x + j) l) = x :: removelast (walk (x + j) l)) by (destruct l; reflexivity). rewrite E.
  cbn [app]. rewrite IH at 1. unfold total. cbn [fold_right]. rewrite Rplus_assoc. reflexivity.
Qed.
(** Every element of a walk with positive steps lies between its ends, and the steps keep
    within the bounds; at the ends they are small. *)
Definition step_ok (c s a b x y : R) : Prop := 0 < y - x <= c /\ a <= x /\ y <= b /\ (x = a \/ y = b -> y - x <= s).
Lemma walk_adj c s a b l : forall x, Forall (fun i => 0 < i <= c) l -> a <= x -> x + total l = b -> last l 0 <= s -> (x = a -> hd 0 l <= s) -> adj (step_ok c s a b) (walk x l).
Proof.
  induction l as [|i l IH]; intros x F La E Ls Hd; [exact I|]. pose proof (Forall_inv F) as Fi. pose proof (Forall_inv_tail F) as Fl. cbv beta in Fi.
  assert (Tl : 0 <= total l) by (apply total_nonneg; eapply Forall_impl; [|exact Fl]; cbv beta; intros; lra).
  assert (E' : x + i + total l = b) by (rewrite <- E; unfold total; cbn [fold_right]; ring).
  assert (G : step_ok c s a b x (x + i)).
  { unfold step_ok. replace (x + i - x) with i by ring. repeat split; try lra. intros [A|A]; [exact (Hd A)|].
    destruct l as [|j l]; [exact Ls|]. pose proof (Forall_inv Fl) as Fj. cbv beta in Fj. assert (0 <= total l) by (apply total_nonneg; eapply Forall_impl; [|exact (Forall_inv_tail Fl)]; cbv beta; intros; lra).
    unfold total in E', Tl. cbn [fold_right] in E'. fold (total l) in E'. lra. }
  destruct l as [|j l]; [cbn [walk adj]; split; [exact G|exact I]|].
  change (walk x (i :: j :: l)) with (x :: (x + i) :: walk (x + i + j) l). cbn [adj]. split; [exact G|].
  change (adj (step_ok c s a b) (walk (x + i) (j :: l))). apply IH; [exact Fl|lra|exact E'|exact Ls|intros A; lra].
Qed.
Section Mesh.
Context (coarse fine ultra : R) (Pu : 0 < ultra) (Pf : 0 < fine) (Fc : fine < coarse).
Lemma mesh_cons a b l : mesh_of coarse fine ultra (a :: b :: l) = interval coarse fine ultra a b ++ mesh_of coarse fine ultra (b :: l).
Proof. reflexivity. Qed.
Lemma interval_walk a b : a < b -> interval coarse fine ultra a b ++ [b] = walk a (all_steps coarse fine ultra (b - a)).
Proof.
  intros L. pose proof (all_total coarse fine ultra (b - a) Fc) as T. unfold interval, all_steps in *.
  destruct (tail_steps coarse fine ultra (b - a)) as [t fresh]. destruct fresh.
  - rewrite !app_assoc in *. rewrite walk_snoc. rewrite total_app in T. cbn [total fold_right] in T. f_equal. f_equal.
    unfold total in T. cbn [fold_right] in T. change (fold_right Rplus 0) with total in T. lra.
  - rewrite (walk_last a (_ ++ _ ++ t)) at 2. rewrite T. f_equal. f_equal. ring.
Qed.
Lemma interval_hd a b : a < b -> exists r, interval coarse fine ultra a b = a :: r.
Proof.
  intros L. pose proof (interval_walk a b L) as E. destruct (all_hd coarse fine ultra (b - a) ltac:(lra) Pu Pf Fc) as [_ N].
  destruct (all_steps coarse fine ultra (b - a)) as [|i l]; [congruence|]. cbn [walk] in E.
  destruct (interval coarse fine ultra a b) as [|x r]; [|injection E as ->; now exists r]. destruct l; discriminate.
Qed.
Lemma interval_adj a b : a < b -> adj (step_ok coarse (small fine ultra) a b) (interval coarse fine ultra a b ++ [b]).
Proof.
  intros L. rewrite interval_walk by assumption. apply walk_adj; [apply all_bounds; lra|lra|rewrite all_total; lra|apply all_last; lra|intros _; apply all_hd; lra].
Qed.
(** What a good mesh is: neighbours are apart by more than zero and at most [coarse], and at
    most by the smaller of the fine sizes next to a master node. *)
Definition element_ok (masters : list R) (x y : R) : Prop :=
  0 < y - x <= coarse /\ (In x masters \/ In y masters -> y - x <= Rmin fine ultra).
Lemma small_min : small fine ultra = Rmin fine ultra.
Proof. unfold small. destruct (Rlt_dec ultra fine); [now rewrite Rmin_right by lra|now rewrite Rmin_left by lra]. Qed.
Lemma sorted_above (a : R) l x : StronglySorted Rlt (a :: l) -> In x l -> a < x.
Proof. intros H I0. apply StronglySorted_inv in H. destruct H as [_ F]. rewrite Forall_forall in F. now apply F. Qed.
Lemma mesh_hd a l : StronglySorted Rlt (a :: l) -> exists r, mesh_of coarse fine ultra (a :: l) = a :: r.
Proof.
  destruct l as [|b l]; intros H; [exists []; reflexivity|]. rewrite mesh_cons. destruct (interval_hd a b) as [r ->]; [apply (sorted_above a (b :: l)); [exact H|now left]|].
  cbn [app]. eexists; reflexivity.
Qed.
Lemma mesh_adj l a pre : StronglySorted Rlt (pre ++ a :: l) -> adj (element_ok (pre ++ a :: l)) (mesh_of coarse fine ultra (a :: l)).
Proof.
  revert a pre. induction l as [|b l IH]; intros a pre H; [exact I|].
  assert (Ha : StronglySorted Rlt (a :: b :: l)). { clear - H. induction pre as [|p pre IH]; [exact H|]. apply IH. cbn [app] in H. apply StronglySorted_inv in H. tauto. }
  assert (L : a < b) by (apply (sorted_above a (b :: l)); [exact Ha|now left]). assert (Hb : StronglySorted Rlt (b :: l)) by (apply StronglySorted_inv in Ha; tauto).
  rewrite mesh_cons. specialize (IH b (pre ++ [a])). rewrite <- app_assoc in IH. cbn [app] in IH. specialize (IH H).
  destruct (mesh_hd b l Hb) as [r Er]. rewrite Er in *. apply adj_app; [|exact IH].
  eapply adj_impl; [|apply interval_adj; exact L]. intros x y _ _ (G1 & G2 & G3 & G4). split; [exact G1|]. rewrite <- small_min. intros M. apply G4.
  assert (U : forall z, In z (pre ++ a :: b :: l) -> z <= a \/ b <= z).
  { intros z Iz. apply in_app_or in Iz. destruct Iz as [Iz|[<-|[<-|Iz]]]; [left|left; lra|right; lra|right].
    - clear - H Iz. induction pre as [|p pre IH]; [destruct Iz|]. cbn [app] in H. destruct Iz as [<-|Iz].
      + apply Rlt_le. apply (sorted_above p (pre ++ a :: b :: l) a H). apply in_or_app. right. now left.
      + apply IH; [apply StronglySorted_inv in H; tauto|exact Iz].
    - apply Rlt_le. now apply (sorted_above b l). }
  destruct M as [M|M]; apply U in M; destruct M as [M|M]; [left; lra|lra|lra|right; lra].
Qed.
Lemma mesh_masters l : forall a x, StronglySorted Rlt (a :: l) -> In x (a :: l) -> In x (mesh_of coarse fine ultra (a :: l)).
Proof.
  induction l as [|b l IH]; intros a x H I0; [exact I0|]. rewrite mesh_cons. apply in_or_app. assert (L : a < b) by (apply (sorted_above a (b :: l)); [exact H|now left]).
  destruct I0 as [<-|I0]; [left; destruct (interval_hd a b L) as [r ->]; now left|]. right. apply IH; [apply StronglySorted_inv in H; tauto|exact I0].
Qed.
Lemma mesh_last l : forall a, mesh_of coarse fine ultra (a :: l) <> [] /\ last (mesh_of coarse fine ultra (a :: l)) 0 = last (a :: l) 0.
Proof.
  induction l as [|b l IH]; intros a; [split; [discriminate|reflexivity]|]. rewrite mesh_cons. destruct (IH b) as [N E]. split.
  - destruct (interval coarse fine ultra a b); [exact N|discriminate].
  - change (last (a :: b :: l) 0) with (last (b :: l) 0). rewrite <- E. clear - N. set (m := mesh_of coarse fine ultra (b :: l)) in *. clearbody m.
    induction (interval coarse fine ultra a b) as [|x i IH']; [reflexivity|]. cbn [app]. destruct (i ++ m) eqn:D; [destruct i; [contradiction|discriminate]|]. exact IH'.
Qed.
End Mesh.

(** * Master nodes of a stack *)

(** The positions of the interfaces: the ends of the layers from x on. *)
Fixpoint ends (x : R) (ws : list R) : list R := match ws with [] => [] | w :: r => (x + w) :: ends (x + w) r end.
(** Every layer is thicker than three half Angstroms. *)
Definition thick (ws : list R) : Prop := Forall (fun w => 15 / 10 * eps0 < w) ws.

Lemma eps0_pos : 0 < eps0.
Proof. unfold eps0. apply Rdiv_lt_0_compat; [lra|]. apply pow_lt. lra. Qed.
Global Opaque eps0.
Lemma add_append p l : forall prev, prev < p - tol0 -> Forall (fun m => m < p - tol0) l -> add_rest p prev l = l ++ [p].
Proof.
  pose proof eps0_pos as Pe. assert (Pt : 0 < tol0) by (unfold tol0; lra). induction l as [|m l IH]; intros prev Hp F; cbn [add_rest].
  - destruct (Rlt_dec prev (p - tol0)); [reflexivity|contradiction].
  - pose proof (Forall_inv F) as Fm. cbv beta in Fm. destruct (Rlt_dec (p + tol0) m); [lra|]. destruct (Rlt_dec (Rabs (m - p)) tol0) as [A|A]; [apply Rabs_def2 in A; lra|].
    rewrite IH; [reflexivity|exact Fm|exact (Forall_inv_tail F)].
Qed.
Lemma add_same p l : forall prev, Forall (fun m => m < p - tol0) l -> add_rest p prev (l ++ [p]) = l ++ [p].
Proof.
  pose proof eps0_pos as Pe. assert (Pt : 0 < tol0) by (unfold tol0; lra). induction l as [|m l IH]; intros prev F; cbn [app add_rest].
  - destruct (Rlt_dec (p + tol0) p); [lra|]. destruct (Rlt_dec (Rabs (p - p)) tol0) as [A|A]; [reflexivity|]. exfalso. apply A. replace (p - p) with 0 by ring. rewrite Rabs_R0. exact Pt.
  - pose proof (Forall_inv F) as Fm. cbv beta in Fm. destruct (Rlt_dec (p + tol0) m); [lra|]. destruct (Rlt_dec (Rabs (m - p)) tol0) as [A|A]; [apply Rabs_def2 in A; lra|].
    rewrite IH; [reflexivity|exact (Forall_inv_tail F)].
Qed.
Lemma add_layer_thick l x w : 15 / 10 * eps0 < w -> Forall (fun m => m < x - tol0) l -> add_layer (l ++ [x], x) w = (l ++ [x; x + w - eps0; x + w], x + w).
Proof.
  intros Hw F. pose proof eps0_pos as Pe. assert (Et : tol0 = 5 / 10 * eps0) by reflexivity. unfold add_layer. f_equal. unfold add_node. rewrite add_same by assumption.
  assert (H0 : forall p, x < p - tol0 -> hd 0 (l ++ [x]) < p - tol0) by (intros p Hp; destruct l as [|m l]; cbn; [exact Hp|pose proof (Forall_inv F); cbv beta in *; lra]).
  assert (F1 : forall p, x < p - tol0 -> Forall (fun m => m < p - tol0) (l ++ [x])).
  { intros p Hp. rewrite Forall_app. split; [eapply Forall_impl; [|exact F]; cbv beta; intros; lra|constructor; [exact Hp|constructor]]. }
  rewrite (add_append (x + w - eps0) (l ++ [x])) by (first [apply H0; lra|apply F1; lra]). rewrite add_append.
  - now rewrite <- !app_assoc.
  - rewrite <- app_assoc. cbn [app]. destruct l as [|m l]; cbn; [lra|pose proof (Forall_inv F); cbv beta in *; lra].
  - rewrite Forall_app. split; [apply F1; lra|constructor; [lra|constructor]].
Qed.
Lemma layers_from ws : forall l x, thick ws -> Forall (fun m => m < x - tol0) l ->
  fold_left add_layer ws (l ++ [x], x) = (l ++ x :: flat_map (fun e => [e - eps0; e]) (ends x ws), last (x :: ends x ws) 0).
Proof.
  pose proof eps0_pos as Pe. assert (Et : tol0 = 5 / 10 * eps0) by reflexivity. induction ws as [|w ws IH]; intros l x T F; [reflexivity|]. cbn [fold_left ends flat_map].
  pose proof (Forall_inv T) as Hw. cbv beta in Hw. rewrite add_layer_thick by assumption.
  change (l ++ [x; x + w - eps0; x + w]) with (l ++ [x; x + w - eps0] ++ [x + w]). rewrite app_assoc. rewrite IH; [|exact (Forall_inv_tail T)|].
  - f_equal. rewrite <- app_assoc. reflexivity.
  - rewrite Forall_app. split; [eapply Forall_impl; [|exact F]; cbv beta; intros; lra|]. repeat constructor; lra.
Qed.
(** The master nodes of thick layers. *)
Definition masters (ws : list R) : list R :=
  0 :: flat_map (fun e => [e - eps0; e]) (removelast (ends 0 ws)) ++ [last (ends 0 ws) 0].
Lemma masters_spec ws : ws <> [] -> thick ws -> drop_before_last (fst (layers_nodes ws)) = masters ws.
Proof.
  intros N T. unfold layers_nodes. change [0] with ([] ++ [0]). rewrite layers_from by (first [exact T|constructor]). cbn [app fst].
  assert (Ne : ends 0 ws <> []) by (destruct ws; [congruence|discriminate]). unfold masters, drop_before_last.
  rewrite (app_removelast_last 0 Ne) at 1 2. rewrite flat_map_app. cbn [flat_map app].
  set (e := last (ends 0 ws) 0). set (r := flat_map (fun e0 => [e0 - eps0; e0]) (removelast (ends 0 ws))).
  replace (0 :: r ++ [e - eps0; e]) with ((0 :: r ++ [e - eps0]) ++ [e]) by (cbn [app]; now rewrite <- app_assoc).
  rewrite removelast_last, last_last. change (0 :: r ++ [e - eps0]) with ((0 :: r) ++ [e - eps0]). rewrite removelast_last. reflexivity.
Qed.
Lemma ends_app x ws w : ends x (ws ++ [w]) = ends x ws ++ [x + total ws + w].
Proof.
  revert x. induction ws as [|v ws IH]; intros x; cbn [app ends]; [unfold total; cbn; now rewrite Rplus_0_r|]. rewrite IH. unfold total. cbn [fold_right app]. now rewrite <- (Rplus_assoc x v).
Qed.
Lemma ends_sorted ws : forall x, thick ws -> StronglySorted Rlt (x :: flat_map (fun e => [e - eps0; e]) (ends x ws)) /\ Forall (fun m => x <= m <= x + total ws) (x :: flat_map (fun e => [e - eps0; e]) (ends x ws)).
Proof.
  pose proof eps0_pos as Pe. induction ws as [|w ws IH]; intros x T.
  - cbn. split; [repeat constructor|]. constructor; [lra|constructor].
  - pose proof (Forall_inv T) as Hw. cbv beta in Hw. destruct (IH (x + w) (Forall_inv_tail T)) as [S1 S2]. cbn [ends flat_map app].
    assert (T0 : 0 <= total ws) by (apply total_nonneg; eapply Forall_impl; [|exact (Forall_inv_tail T)]; cbv beta; intros; lra).
    set (r := (x + w) :: flat_map (fun e => [e - eps0; e]) (ends (x + w) ws)) in *.
    assert (Tw : total (w :: ws) = w + total ws) by reflexivity. rewrite Tw. split.
    + constructor; [constructor; [exact S1|]|].
      * eapply Forall_impl; [|exact S2]. cbv beta. intros; lra.
      * constructor; [lra|]. eapply Forall_impl; [|exact S2]. cbv beta. intros; lra.
    + constructor; [lra|]. constructor; [lra|]. eapply Forall_impl; [|exact S2]. cbv beta. intros; lra.
Qed.
Lemma SSorted_app (l m : list R) : StronglySorted Rlt l -> StronglySorted Rlt m -> (forall x y, In x l -> In y m -> x < y) -> StronglySorted Rlt (l ++ m).
Proof.
  induction l as [|a l IH]; intros A B C; [exact B|]. cbn [app]. apply StronglySorted_inv in A. destruct A as [A F]. constructor.
  - apply IH; [exact A|exact B|]. intros x y Ix Iy. apply C; [now right|exact Iy].
  - rewrite Forall_app. split; [exact F|]. rewrite Forall_forall. intros y Iy. apply C; [now left|exact Iy].
Qed.
Lemma masters_app ws w : masters (ws ++ [w]) = (0 :: flat_map (fun e => [e - eps0; e]) (ends 0 ws)) ++ [0 + total ws + w].
Proof. unfold masters. rewrite ends_app, removelast_last, last_last. reflexivity. Qed.
Lemma masters_sorted ws : ws <> [] -> thick ws -> StronglySorted Rlt (masters ws) /\ last (masters ws) 0 = total ws.
Proof.
  intros N T. destruct (exists_last N) as (ws' & w & ->). rewrite masters_app. unfold thick in T. rewrite Forall_app in T. destruct T as [T Tw]. pose proof (Forall_inv Tw) as Hw. cbv beta in Hw. pose proof eps0_pos as Pe.
  destruct (ends_sorted ws' 0 T) as [S1 S2]. split.
  - apply SSorted_app; [exact S1|repeat constructor|]. intros x y Ix [<-|[]]. rewrite Forall_forall in S2. specialize (S2 x Ix). lra.
  - rewrite last_last, total_app. unfold total. cbn. ring.
Qed.

(** C138, in part (sizes with fine < coarse): for layers thicker than 0.15 nm and a fine size below the coarse one, the mesh runs
    from zero to the total thickness, has a node at every interface and one 0.1 nm before
    every inner one, is strictly increasing, has no element larger than the coarse size and
    none larger than the finest size next to those nodes. *)
Theorem C138_mesh_partial : forall coarse fine ultra ws, 0 < ultra -> 0 < fine -> fine < coarse -> ws <> [] -> thick ws ->
  let x := create_mesh coarse fine ultra ws in let k := length x in
  nth 0 x 0 = 0 /\ nth (k - 1) x 0 = total ws /\
  (forall j, (0 < j <= length ws)%nat -> In (total (firstn j ws)) x) /\
  (forall j, (0 < j < length ws)%nat -> In (total (firstn j ws) - eps0) x) /\
  (forall i, (S i < k)%nat -> 0 < nth (S i) x 0 - nth i x 0 <= coarse) /\
  (forall i j, (S i < k)%nat -> (j <= length ws)%nat -> nth i x 0 = total (firstn j ws) \/ nth (S i) x 0 = total (firstn j ws) -> nth (S i) x 0 - nth i x 0 <= Rmin fine ultra).
Proof.
  intros coarse fine ultra ws Pu Pf Fc N T. destruct (masters_sorted ws N T) as [Srt Lst]. unfold create_mesh. cbv zeta. rewrite masters_spec by assumption. set (x := mesh_of coarse fine ultra (masters ws)). set (k := length x).
  assert (Em : masters ws = 0 :: flat_map (fun e => [e - eps0; e]) (removelast (ends 0 ws)) ++ [last (ends 0 ws) 0]) by reflexivity.
  set (rest := flat_map (fun e => [e - eps0; e]) (removelast (ends 0 ws)) ++ [last (ends 0 ws) 0]) in Em.
  assert (IE : forall m, In m (masters ws) -> In m x) by (intros m I0; unfold x; rewrite Em in *; apply mesh_masters; assumption).
  assert (Ej : forall ws' y j, (0 < j <= length ws')%nat -> In (y + total (firstn j ws')) (ends y ws')).
  { intros ws'. induction ws' as [|w ws' IH]; intros y j Lj; [cbn in Lj; lia|]. destruct j as [|j]; [lia|]. cbn [firstn ends]. unfold total. cbn [fold_right]. fold (total (firstn j ws')).
    destruct j as [|j]; [left; cbn; ring|]. right. rewrite <- Rplus_assoc. apply IH. cbn [length] in Lj. lia. }
  assert (Mi : forall j, (0 < j <= length ws)%nat -> In (total (firstn j ws)) (masters ws)).
  { intros j Lj. rewrite Em. right. unfold rest. apply in_or_app. specialize (Ej ws 0 j Lj). rewrite Rplus_0_l in Ej.
    assert (Ne : ends 0 ws <> []) by (destruct ws; [congruence|discriminate]). rewrite (app_removelast_last 0 Ne) in Ej. apply in_app_or in Ej.
    destruct Ej as [Ej|[Ej|[]]]; [left; apply in_flat_map; eexists; split; [exact Ej|right; now left]|right; left; exact Ej]. }
  assert (M0 : forall j, (j <= length ws)%nat -> In (total (firstn j ws)) (masters ws)).
  { intros j Lj. destruct j as [|j]; [rewrite Em; left; reflexivity|apply Mi; lia]. }
  pose proof (mesh_adj coarse fine ultra Pu Pf Fc rest 0 []) as A. cbn [app] in A. rewrite <- Em in A. specialize (A Srt).
  destruct (mesh_hd coarse fine ultra Pu Pf Fc 0 rest) as [r Hr]; [rewrite <- Em; exact Srt|]. rewrite <- Em in Hr. fold x in Hr, A.
  split; [rewrite Hr; reflexivity|]. split; [|split; [|split; [|split]]].
  - unfold k. pose proof (mesh_last coarse fine ultra rest 0) as [_ E]. rewrite <- Em in E. fold x in E. rewrite Lst in E. rewrite <- E. clear.
    induction x as [|a x IH]; [reflexivity|]. destruct x as [|b x]; [reflexivity|]. change (last (a :: b :: x) 0) with (last (b :: x) 0). rewrite <- IH. cbn [length]. replace (S (S (length x)) - 1)%nat with (S (length x)) by lia. cbn [nth]. replace (S (length x) - 1)%nat with (length x) by lia. reflexivity.
  - intros j Lj. apply IE, Mi, Lj.
  - intros j Lj. apply IE. rewrite Em. right. unfold rest. apply in_or_app. left.
    destruct (exists_last N) as (ws' & w & E). subst ws. rewrite app_length in Lj. cbn [length] in Lj. rewrite ends_app, removelast_last. apply in_flat_map. eexists. split; [apply (Ej ws' 0 j); lia|].
    left. rewrite firstn_app. replace (j - length ws')%nat with 0%nat by lia. cbn [firstn]. rewrite app_nil_r. ring.
  - intros i Li. apply (adj_nth _ _ i A Li).
  - intros i j Li Lj H. apply (adj_nth _ _ i A Li). destruct H as [-> | ->]; [left|right]; apply M0; exact Lj.
Qed.
(** Two layers of 0.5 and 1 micrometres with the default sizes. *)
Example C138_case : let ws := [5 / 10 ^ 7; 1 / 10 ^ 6] in
  0 < 2 / 10 ^ 10 /\ 0 < 1 / 10 ^ 9 /\ 1 / 10 ^ 9 < 2 / 10 ^ 8 /\ thick ws /\
  let x := create_mesh (2 / 10 ^ 8) (1 / 10 ^ 9) (2 / 10 ^ 10) ws in
  In (5 / 10 ^ 7) x /\ In (5 / 10 ^ 7 - eps0) x /\ nth (length x - 1) x 0 = 15 / 10 ^ 7.
Proof.
  intros ws. assert (Ee : eps0 = 1 / 10 ^ 10) by (with_strategy transparent [eps0] reflexivity).
  assert (T : thick ws) by (unfold thick, ws; repeat constructor; rewrite Ee; lra). repeat split; try lra; try exact T.
  all: destruct (C138_mesh_partial (2 / 10 ^ 8) (1 / 10 ^ 9) (2 / 10 ^ 10) ws ltac:(lra) ltac:(lra) ltac:(lra) ltac:(discriminate) T) as (_ & A & B & C & _).
  - specialize (B 1%nat ltac:(cbn; lia)). unfold total, ws in B. cbn [firstn fold_right] in B. rewrite Rplus_0_r in B. exact B.
  - specialize (C 1%nat ltac:(cbn; lia)). unfold total, ws in C. cbn [firstn fold_right] in C. rewrite Rplus_0_r in C. exact C.
  - rewrite A. unfold total, ws. cbn [fold_right]. lra.
Qed.
(** A single layer thicker than the coarse size breaks the bound whenever the fine size is not
    below the coarse one: the last element is then twice as long as the others. *)
Theorem C138_mesh_refuted : forall coarse fine ultra w, 0 < coarse -> coarse <= fine -> 15 / 10 * eps0 < w -> coarse < w ->
  let x := create_mesh coarse fine ultra [w] in exists i, (S i < length x)%nat /\ coarse < nth (S i) x 0 - nth i x 0.
Proof.
  intros coarse fine ultra w Pc Lf Hw Lw. cbv zeta. assert (T : thick [w]) by (repeat constructor; exact Hw). unfold create_mesh. rewrite masters_spec by (first [discriminate|exact T]).
  unfold masters. cbn [ends removelast flat_map app last]. rewrite Rplus_0_l. rewrite mesh_cons. unfold interval, tail_steps, head_steps. destruct (Rlt_dec fine coarse); [lra|]. rewrite app_nil_l, app_nil_r, Rminus_0_r.
  cbn [mesh_of]. unfold mid_steps. pose proof eps0_pos as Pe. set (k := (lc coarse w - 1)%nat). set (d := delta coarse w).
  assert (G : w = INR (lc coarse w + 1) * d) by (unfold d, delta; field; apply not_0_INR; lia).
  pose proof (Rceil_spec (w / coarse)) as [C1 C2].
  assert (Z1 : 1 < w / coarse) by (apply (Rmult_lt_reg_r coarse); [exact Pc|]; unfold Rdiv; rewrite Rmult_assoc, Rinv_l; lra).
  assert (Zp : (1 < Rceil (w / coarse))%Z) by (apply lt_IZR; lra).
  assert (Ec : INR (lc coarse w + 1) = IZR (Rceil (w / coarse))).
  { unfold lc, cells. replace (Z.to_nat (Rceil (w / coarse)) - 1 + 1)%nat with (Z.to_nat (Rceil (w / coarse))) by lia. rewrite INR_IZR_INZ, Z2Nat.id by lia. reflexivity. }
  assert (Lc : (1 <= lc coarse w)%nat) by (unfold lc, cells; lia).
  assert (Ek : INR (lc coarse w + 1) = INR k + 2) by (replace (lc coarse w + 1)%nat with (k + 2)%nat by (unfold k; lia); rewrite plus_INR; cbn; lra).
  assert (Ld : coarse < 2 * d).
  { assert (H : INR (lc coarse w + 1) * coarse < 2 * w).
    { rewrite Ec. apply Rlt_trans with ((w / coarse + 1) * coarse); [apply Rmult_lt_compat_r; lra|]. replace ((w / coarse + 1) * coarse) with (w + coarse) by (field; lra). lra. }
    assert (0 < INR (lc coarse w + 1)) by (apply lt_0_INR; lia). apply (Rmult_lt_reg_l (INR (lc coarse w + 1))); [assumption|]. lra. }
  assert (Ln : forall m x0, length (walk x0 (repeat d m)) = S m) by (induction m as [|m IHm]; intros x0; cbn [repeat walk length]; [reflexivity|now rewrite IHm]).
  assert (Nk : forall m x0, nth m (walk x0 (repeat d m)) 0 = x0 + INR m * d).
  { induction m as [|m IHm]; intros x0; [cbn; ring|]. cbn [repeat walk nth]. rewrite IHm, S_INR. ring. }
  exists k. rewrite app_length, Ln. split; [cbn; lia|]. rewrite app_nth2 by (rewrite Ln; lia). rewrite Ln, Nat.sub_diag. cbn [nth]. rewrite app_nth1 by (rewrite Ln; lia). rewrite Nk. rewrite Ek in G. lra.
Qed.
Example C138_refuted_case : let x := create_mesh (3 / 10 ^ 8) (3 / 10 ^ 8) (2 / 10 ^ 10) [1 / 10 ^ 7] in exists i, (S i < length x)%nat /\ 3 / 10 ^ 8 < nth (S i) x 0 - nth i x 0.
Proof. assert (Ee : eps0 = 1 / 10 ^ 10) by (with_strategy transparent [eps0] reflexivity). apply C138_mesh_refuted; rewrite ?Ee; lra. Qed.

(** * The layer of a node *)
Definition positive (ws : list R) : Prop := Forall (fun w => 0 < w) ws.
Lemma fill_below x ws : forall b i old, positive ws -> x < b -> fill x i old (borders b ws) = old.
Proof.
  induction ws as [|w ws IH]; intros b i old P L; [reflexivity|]. cbn [borders fill]. pose proof (Forall_inv P) as Hw. cbv beta in Hw. destruct (Rle_dec b x); [lra|]. apply IH; [exact (Forall_inv_tail P)|lra].
Qed.
Lemma fill_in x ws : forall b i j old, positive ws -> (j < length ws)%nat -> b + total (firstn j ws) <= x -> (x < b + total (firstn (S j) ws) \/ S j = length ws /\ x <= b + total ws) ->
  fill x i old (borders b ws) = Some (i + j)%nat.
Proof.
  induction ws as [|w ws IH]; intros b i j old P Lj A B; [cbn in Lj; lia|]. cbn [borders fill]. pose proof (Forall_inv P) as Hw. cbv beta in Hw. pose proof (Forall_inv_tail P) as P'.
  destruct j as [|j].
  - unfold total in A. cbn [firstn fold_right] in A. assert (x <= b + w).
    { destruct B as [B|[B1 B2]]; [unfold total in B; cbn [firstn fold_right] in B; lra|]. destruct ws; [unfold total in B2; cbn [fold_right] in B2; lra|discriminate]. }
    destruct (Rle_dec b x); [|lra]. destruct (Rle_dec x (b + w)); [|lra]. rewrite Nat.add_0_r. destruct B as [B|[B1 B2]].
    + apply fill_below; [exact P'|]. unfold total in B. cbn [firstn fold_right] in B. lra.
    + destruct ws; [reflexivity|discriminate].
  - rewrite (IH (b + w) (i + 1)%nat j); [f_equal; lia|exact P'|cbn [length] in Lj; lia| |].
    + unfold total in A |- *. cbn [firstn fold_right] in A. lra.
    + destruct B as [B|[B1 B2]]; [left|right].
      * change (firstn (S (S j)) (w :: ws)) with (w :: firstn (S j) ws) in B. unfold total in B |- *. cbn [fold_right] in B. lra.
      * split; [cbn [length] in B1; lia|]. unfold total in B2 |- *. cbn [fold_right] in B2. lra.
Qed.
Lemma locate ws : forall x b, ws <> [] -> positive ws -> b <= x <= b + total ws ->
  exists j, (j < length ws)%nat /\ b + total (firstn j ws) <= x /\ (x < b + total (firstn (S j) ws) \/ S j = length ws /\ x <= b + total ws).
Proof.
  induction ws as [|w ws IH]; intros x b N P H; [congruence|]. pose proof (Forall_inv_tail P) as P'. assert (Tw : total (w :: ws) = w + total ws) by reflexivity. rewrite Tw in *.
  destruct (Rlt_dec x (b + w)) as [L|L].
  - exists 0%nat. split; [cbn; lia|]. unfold total. cbn [firstn fold_right]. split; [lra|left; lra].
  - destruct ws as [|v ws].
    + exists 0%nat. split; [cbn; lia|]. unfold total in H |- *. cbn [firstn fold_right] in *. split; [lra|right; split; [reflexivity|lra]].
    + destruct (IH x (b + w)) as (j & Lj & A & B); [discriminate|exact P'|lra|]. exists (S j). split; [cbn [length] in *; lia|].
      change (firstn (S j) (w :: v :: ws)) with (w :: firstn j (v :: ws)). change (firstn (S (S j)) (w :: v :: ws)) with (w :: firstn (S j) (v :: ws)).
      assert (Tc : forall l, total (w :: l) = w + total l) by reflexivity. rewrite !Tc. split; [lra|]. destruct B as [B|[B1 B2]]; [left; lra|right]. split; [cbn [length] in *; lia|lra].
Qed.

(** C139: a node has the data of the layer that contains it, an interface belonging to the layer
    that begins there and the end of the device to the last layer. *)
Theorem C139_layer : forall ws x, ws <> [] -> positive ws -> 0 <= x <= total ws -> forall j,
  layer_at ws x = Some j <-> (j < length ws)%nat /\ total (firstn j ws) <= x /\ (x < total (firstn (S j) ws) \/ S j = length ws).
Proof.
  intros ws x N P H j.
  assert (K : forall i, (i < length ws)%nat -> total (firstn i ws) <= x -> (x < total (firstn (S i) ws) \/ S i = length ws) -> layer_at ws x = Some i).
  { intros i Li A B. unfold layer_at. rewrite (fill_in x ws 0 0 i None P Li); [reflexivity|lra|]. destruct B as [B|B]; [left; lra|right; split; [exact B|lra]]. }
  split; [|intros (A & B & C); now apply K]. intros E. destruct (locate ws x 0 N P) as (i & Li & A & B); [lra|]. rewrite !Rplus_0_l in *.
  assert (B' : x < total (firstn (S i) ws) \/ S i = length ws) by tauto. rewrite (K i Li A B') in E. injection E as <-. tauto.
Qed.
Lemma total_firstn_le ws : positive ws -> forall i j, (i <= j)%nat -> total (firstn i ws) <= total (firstn j ws).
Proof.
  induction ws as [|w ws IH]; intros P i j L; [rewrite !firstn_nil; lra|]. pose proof (Forall_inv P) as Hw. cbv beta in Hw. destruct i as [|i].
  - cbn [firstn]. apply total_nonneg. assert (F : Forall (fun w => 0 < w) (firstn j (w :: ws) ++ skipn j (w :: ws))) by (rewrite firstn_skipn; exact P). rewrite Forall_app in F. tauto.
  - destruct j as [|j]; [lia|]. cbn [firstn]. unfold total. cbn [fold_right]. apply Rplus_le_compat_l. apply (IH (Forall_inv_tail P)). lia.
Qed.
(** Between two neighbours of a strictly increasing list there is no element. *)
Lemma increasing_nth (x : list R) : (forall i, (S i < length x)%nat -> 0 < nth (S i) x 0 - nth i x 0) -> forall i j, (i < j < length x)%nat -> nth i x 0 < nth j x 0.
Proof. intros H i j L. induction j as [|j IH]; [lia|]. destruct (Nat.eq_dec i j) as [->|N]; [specialize (H j ltac:(lia)); lra|]. specialize (IH ltac:(lia)). specialize (H j ltac:(lia)). lra. Qed.
Lemma no_between (x : list R) m i : (forall i, (S i < length x)%nat -> 0 < nth (S i) x 0 - nth i x 0) -> In m x -> (S i < length x)%nat -> m <= nth i x 0 \/ nth (S i) x 0 <= m.
Proof.
  intros H I0 L. destruct (In_nth _ _ 0 I0) as (k & Lk & <-). pose proof (increasing_nth x H) as M. destruct (Nat.lt_trichotomy k i) as [A|[-> |A]]; [left; apply Rlt_le, M; lia|left; lra|right].
  destruct (Nat.eq_dec k (S i)) as [-> |N]; [lra|]. apply Rlt_le, M. lia.
Qed.
(** The data change only across the elements of 0.1 nm (or less) that end at an interface,
    and there from one layer to the next one. *)
Theorem C139_changes : forall coarse fine ultra ws, 0 < ultra -> 0 < fine -> fine < coarse -> ws <> [] -> thick ws ->
  let x := create_mesh coarse fine ultra ws in
  forall i, (S i < length x)%nat -> exists j, layer_at ws (nth i x 0) = Some j /\
    (layer_at ws (nth (S i) x 0) = Some j \/
     layer_at ws (nth (S i) x 0) = Some (S j) /\ nth (S i) x 0 = total (firstn (S j) ws) /\ nth (S i) x 0 - nth i x 0 <= eps0).
Proof.
  intros coarse fine ultra ws Pu Pf Fc N T x i Li. destruct (C138_mesh_partial coarse fine ultra ws Pu Pf Fc N T) as (E0 & E1 & A & B & C & _). fold x in E0, E1, A, B, C. pose proof eps0_pos as Pe.
  assert (P : positive ws) by (eapply Forall_impl; [|exact T]; cbv beta; intros; lra).
  assert (H : forall k, (S k < length x)%nat -> 0 < nth (S k) x 0 - nth k x 0) by (intros k Lk; apply C; exact Lk). pose proof (increasing_nth x H) as M.
  assert (Rg : forall k, (k < length x)%nat -> 0 <= nth k x 0 <= total ws).
  { intros k Lk. split; [apply Rle_trans with (nth 0 x 0); [lra|]; destruct k as [|k]; [lra|apply Rlt_le, M; lia]|]. apply Rle_trans with (nth (length x - 1) x 0); [|lra]. destruct (Nat.eq_dec k (length x - 1)) as [-> |Nk]; [lra|apply Rlt_le, M; lia]. }
  pose proof (Rg i ltac:(lia)) as Ri. pose proof (Rg (S i) Li) as Rs. specialize (H i Li) as Hi.
  destruct (locate ws (nth i x 0) 0 N P) as (j & Lj & J1 & J2); [lra|]. rewrite !Rplus_0_l in *. exists j.
  split; [apply C139_layer; [exact N|exact P|exact Ri|tauto]|].
  destruct (Nat.eq_dec (S j) (length ws)) as [El|Nl]; [left; apply C139_layer; [exact N|exact P|exact Rs|]; split; [exact Lj|]; split; [lra|now right]|].
  destruct J2 as [J2|[J2 _]]; [|contradiction].
  destruct (Rlt_dec (nth (S i) x 0) (total (firstn (S j) ws))) as [L|L]; [left; apply C139_layer; [exact N|exact P|exact Rs|]; split; [exact Lj|]; split; [lra|now left]|]. right.
  assert (Ey : nth (S i) x 0 = total (firstn (S j) ws)) by (destruct (no_between x _ i H (A (S j) ltac:(lia)) Li); lra).
  split; [|split; [exact Ey|]].
  - apply C139_layer; [exact N|exact P|exact Rs|]. split; [lia|]. split; [lra|].  destruct (Nat.eq_dec (S (S j)) (length ws)) as [|Nl']; [now right|left].
    rewrite Ey. assert (Es : exists w, In w ws /\ total (firstn (S (S j)) ws) = total (firstn (S j) ws) + w).
    { clear - Nl Lj. assert (L : (S j < length ws)%nat) by lia. revert L. generalize (S j) as m. clear. intros m. revert ws. induction m as [|m IH]; intros ws L; destruct ws as [|w ws]; cbn [length] in L; try lia.
      - exists w. split; [now left|]. unfold total. cbn. ring.
      - destruct (IH ws) as (v & Iv & E); [lia|]. exists v. split; [now right|]. change (firstn (S (S m)) (w :: ws)) with (w :: firstn (S m) ws). change (firstn (S m) (w :: ws)) with (w :: firstn m ws). assert (Tc : forall l, total (w :: l) = w + total l) by reflexivity. rewrite !Tc, E. ring. }
    destruct Es as (w & Iw & ->). unfold positive in P. rewrite Forall_forall in P. specialize (P w Iw). lra.
  - destruct (no_between x _ i H (B (S j) ltac:(lia)) Li) as [Q|Q]; lra.
Qed.
(** The interface of two layers belongs to the second one, the node 0.1 nm before to the first. *)
Example C139_case : let ws := [5 / 10 ^ 7; 1 / 10 ^ 6] in
  thick ws /\ layer_at ws (5 / 10 ^ 7) = Some 1%nat /\ layer_at ws (5 / 10 ^ 7 - eps0) = Some 0%nat /\ layer_at ws (15 / 10 ^ 7) = Some 1%nat.
Proof.
  intros ws. assert (Ee : eps0 = 1 / 10 ^ 10) by (with_strategy transparent [eps0] reflexivity).
  assert (P : positive ws) by (unfold positive, ws; repeat constructor; lra). assert (N : ws <> []) by discriminate.
  split; [unfold thick, ws; repeat constructor; rewrite Ee; lra|].
  repeat split; apply C139_layer; try assumption; unfold total, ws; cbn [firstn fold_right length]; rewrite ?Ee; repeat split; try lia; try lra; first [left; lra|right; reflexivity].
Qed.
(** With a given number of elements they are equal and cover the device; interfaces are not
    nodes in general. *)
Theorem C138_uniform : forall xd m, 0 < xd -> (0 < m)%nat -> let x := uniform_mesh xd m in
  length x = S m /\ nth 0 x 0 = 0 /\ nth m x 0 = xd /\ forall i, (i < m)%nat -> nth (S i) x 0 - nth i x 0 = xd / INR m.
Proof.
  intros xd m Hx Hm x. assert (P : 0 < INR m) by (apply lt_0_INR; exact Hm).
  assert (N : forall i, (i <= m)%nat -> nth i x 0 = INR i * xd / INR m).
  { intros i Hi. unfold x, uniform_mesh. rewrite (nth_indep _ 0 ((fun i => INR i * xd / INR m) 0%nat)) by (rewrite map_length, seq_length; lia). rewrite (map_nth (fun i => INR i * xd / INR m)), seq_nth by lia. reflexivity. }
  split; [unfold x, uniform_mesh; rewrite map_length, seq_length; lia|]. split; [rewrite N by lia; cbn [INR]; field; lra|]. split; [rewrite N by lia; field; lra|].
  intros i Hi. rewrite !N by lia. rewrite S_INR. field. lra.
Qed.
Example C138_uniform_example : nth 2 (uniform_mesh 6 4) 0 = 3.
Proof. unfold uniform_mesh. cbn. lra. Qed.

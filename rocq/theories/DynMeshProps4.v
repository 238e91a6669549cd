(** C196, continued: dynamic meshing of the meshes of CreateMesh, any number of times. *)
From Coq Require Import Reals List Bool Arith ZArith Lia Lra Sorted.
From Verif Require Import Common NumModel DDMeshModel DDMeshProps DynMeshModel DynMeshProps DynMeshProps2 DynMeshProps3.
From Coq Require Import List.
Import ListNotations.
Open Scope R_scope.

(** * Specification *)
(** Meshes adapted one after the other, starting with [X]: each is made by DynamicMesh from a solution
    on the one before, whatever the solution, Growth, the ceiling of infinity and what is in the array
    after its end are. *)
Inductive adapted (ms : list R) (X : list node) : list node -> Prop :=
| adapted_none : adapted ms X X
| adapted_more Y Y' G i y r : adapted ms X Y -> dynamic_mesh G i y ms Y = Ok r -> map nx Y' = map fst r -> adapted ms X Y'.

(** * Proofs *)
Lemma rising_nth l : (forall i, (S i < length l)%nat -> 0 < nth (S i) l 0 - nth i l 0) -> rising l.
Proof.
  induction l as [|a l IH]; intros h; [constructor|].
  assert (hl : rising l) by (apply IH; intros i hi; apply (h (S i)); cbn [length]; lia).
  apply rising_cons; split; [exact hl|]. intros b hb. destruct l as [|c l]; [destruct hb|].
  assert (hc : a < c) by (specialize (h 0%nat ltac:(cbn [length]; lia)); cbn in h; lra).
  destruct hb as [<-|hb]; [exact hc|]. apply rising_cons in hl as [_ hl]. specialize (hl b hb). lra.
Qed.
Lemma last_nth (l : list R) : last l 0 = nth (length l - 1) l 0.
Proof.
  induction l as [|a [|b l] IH]; [reflexivity|reflexivity|]. change (last (a :: b :: l) 0) with (last (b :: l) 0). rewrite IH.
  cbn [length]. replace (S (S (length l)) - 1)%nat with (S (S (length l) - 1))%nat by lia. reflexivity.
Qed.
(** The master nodes after CreateMesh. *)
Definition created_masters (ws : list R) : list R := drop_before_last (fst (layers_nodes ws)).
Lemma created_ok coarse fine ultra ws X : 0 < ultra -> 0 < fine -> fine < coarse -> ws <> [] -> thick ws ->
  map nx X = create_mesh coarse fine ultra ws -> mesh_ok (created_masters ws) X.
Proof.
  intros Pu Pf Fc N T eX. destruct (C138_mesh_partial coarse fine ultra ws Pu Pf Fc N T) as (E0 & E1 & _ & _ & C & _).
  destruct (masters_sorted ws N T) as [Srt Lst]. unfold created_masters. rewrite (masters_spec ws N T).
  unfold mesh_ok. rewrite eX. split; [apply rising_nth; intros i hi; apply (C i hi)|]. split; [exact Srt|].
  assert (ec : create_mesh coarse fine ultra ws = mesh_of coarse fine ultra (masters ws)) by (unfold create_mesh; rewrite (masters_spec ws N T); reflexivity).
  assert (em : exists rest, masters ws = 0 :: rest) by (unfold masters; eauto). destruct em as [rest em].
  split; [|split; [|split]].
  - intros m hm. rewrite ec. rewrite em in *. apply mesh_masters; assumption.
  - unfold masters. cbn [length]. rewrite app_length. cbn [length]. lia.
  - rewrite em. cbn [hd]. set (x := create_mesh coarse fine ultra ws) in *. destruct x; [reflexivity|]. symmetry. exact E0.
  - rewrite ec, em. symmetry. apply mesh_last.
Qed.
Lemma adapted_ok ms X Y : mesh_ok ms X -> adapted ms X Y -> mesh_ok ms Y /\ hd 0 (map nx Y) = hd 0 (map nx X) /\ last (map nx Y) 0 = last (map nx X) 0.
Proof.
  intros h a. induction a as [|Y Y' G i y r a (h1 & h2 & h3) e eY]; [auto|].
  destruct (C196_mesh G i y ms Y h1) as (r' & e' & m1 & m2 & m3 & m4). rewrite e in e'. injection e' as <-.
  rewrite eY, m2, m3, h2, h3. split; [|auto]. destruct h1 as (_ & q2 & _ & q4 & q5 & q6).
  unfold mesh_ok. rewrite eY, m2, m3. auto 10.
Qed.

(** C196 (device): for layers thicker than 1.5 Angstrom and a fine mesh finer than the coarse one, every
    mesh that DynamicMesh makes out of that of CreateMesh, however often it is called and whatever
    the solutions in between are, is strictly increasing from zero to the thickness of the device, has
    nodes at all interfaces and, inside the device, 1 Angstrom before them; and it can be adapted again. *)
Theorem C196_device coarse fine ultra ws X Y : 0 < ultra -> 0 < fine -> fine < coarse -> ws <> [] -> thick ws ->
  map nx X = create_mesh coarse fine ultra ws -> adapted (created_masters ws) X Y ->
  rising (map nx Y) /\ hd 0 (map nx Y) = 0 /\ last (map nx Y) 0 = total ws /\
  (forall j, (0 < j <= length ws)%nat -> In (total (firstn j ws)) (map nx Y)) /\
  (forall j, (0 < j < length ws)%nat -> In (total (firstn j ws) - eps0) (map nx Y)) /\
  forall G i y, is_ok (dynamic_mesh G i y (created_masters ws) Y) = true.
Proof.
  intros Pu Pf Fc N T eX a. assert (hX := created_ok coarse fine ultra ws X Pu Pf Fc N T eX).
  destruct (adapted_ok _ _ _ hX a) as (hY & e1 & e2).
  destruct (C138_mesh_partial coarse fine ultra ws Pu Pf Fc N T) as (E0 & E1 & _).
  rewrite eX in e1, e2. split; [apply hY|].
  split; [rewrite e1; set (x := create_mesh coarse fine ultra ws) in *; destruct x; [reflexivity|exact E0]|].
  split; [rewrite e2, last_nth; exact E1|].
  assert (hm : forall m, In m (masters ws) -> In m (map nx Y)).
  { intros m hm. apply hY. unfold created_masters. rewrite (masters_spec ws N T). exact hm. }
  assert (Ej : forall ws' y j, (0 < j <= length ws')%nat -> In (y + total (firstn j ws')) (ends y ws')).
  { intros ws'. induction ws' as [|w ws' IH]; intros y j Lj; [cbn in Lj; lia|]. destruct j as [|j]; [lia|].
    cbn [firstn ends]. unfold total. cbn [fold_right]. fold (total (firstn j ws')). destruct j as [|j].
    - left. cbn. lra.
    - right. rewrite <- Rplus_assoc. apply IH. cbn [length] in Lj. lia. }
  assert (Ej' : forall ws' y j, (0 < j < length ws')%nat -> In (y + total (firstn j ws')) (removelast (ends y ws'))).
  { intros ws'. induction ws' as [|w ws' IH]; intros y j Lj; [cbn in Lj; lia|]. destruct j as [|j]; [lia|].
    destruct ws' as [|w' ws']; [cbn in Lj; lia|]. cbn [ends]. cbn [removelast]. cbn [firstn]. unfold total. cbn [fold_right]. fold (total (firstn j (w' :: ws'))). destruct j as [|j].
    - left. cbn. lra.
    - right. rewrite <- Rplus_assoc. apply (IH (y + w) (S j)). cbn [length] in *. lia. }
  assert (hne : ends 0 ws <> []) by (destruct ws; [contradiction|discriminate]).
  split; [|split].
  - intros j hj. apply hm. unfold masters. right. apply in_app_iff. specialize (Ej ws 0 j hj). rewrite Rplus_0_l in Ej.
    rewrite (app_removelast_last 0 hne) in Ej. apply in_app_iff in Ej as [Ej|Ej]; [left|right; exact Ej].
    apply in_flat_map. exists (total (firstn j ws)). split; [exact Ej|right; left; reflexivity].
  - intros j hj. apply hm. unfold masters. right. apply in_app_iff. left. specialize (Ej' ws 0 j hj). rewrite Rplus_0_l in Ej'.
    apply in_flat_map. exists (total (firstn j ws)). split; [exact Ej'|left; reflexivity].
  - intros G i y. destruct (C196_mesh G i y _ Y hY) as (r & -> & _). reflexivity.
Qed.

#[local] Transparent eps0.
(** A layer of 10 nm on one of 20 nm, on a coarse mesh of 5 nm. *)
Example ex_device Y : let X := map flat (create_mesh (5 / 10 ^ 9) (1 / 10 ^ 9) (2 / 10 ^ 10) [10 / 10 ^ 9; 20 / 10 ^ 9]) in
  adapted (created_masters [10 / 10 ^ 9; 20 / 10 ^ 9]) X Y -> In (10 / 10 ^ 9) (map nx Y).
Proof.
  cbv zeta. intros a. assert (T : thick [10 / 10 ^ 9; 20 / 10 ^ 9]) by (apply Forall_cons; [|apply Forall_cons; [|apply Forall_nil]]; unfold eps0; lra).
  assert (N : [10 / 10 ^ 9; 20 / 10 ^ 9] <> []) by discriminate.
  assert (e : map nx (map flat (create_mesh (5 / 10 ^ 9) (1 / 10 ^ 9) (2 / 10 ^ 10) [10 / 10 ^ 9; 20 / 10 ^ 9])) = create_mesh (5 / 10 ^ 9) (1 / 10 ^ 9) (2 / 10 ^ 10) [10 / 10 ^ 9; 20 / 10 ^ 9])
    by (rewrite map_map; apply map_id).
  destruct (C196_device (5 / 10 ^ 9) (1 / 10 ^ 9) (2 / 10 ^ 10) _ _ Y ltac:(lra) ltac:(lra) ltac:(lra) N T e a) as (_ & _ & _ & h & _).
  specialize (h 1%nat ltac:(cbn; lia)). cbn [firstn] in h. unfold total in h. cbn [fold_right] in h. rewrite Rplus_0_r in h. exact h.
Qed.

(** * Smoothing *)
(** Marked nodes are halfway between their neighbours. *)
Fixpoint halfway (left : R) (l : list (R * bool)) : Prop :=
  match l with
  | (x, b) :: (((y, _) :: _) as r) => (b = true -> x - left = y - x) /\ halfway x r
  | _ => True
  end.
(** Smoothing leaves the nodes where they are exactly if those that it may move are halfway between their
    neighbours. *)
Theorem C196_smoothing : forall y l a, snd (last l (0, false)) = false -> smooth_pass y (a :: l) = a :: l <-> halfway (fst a) l.
Proof.
  intros y l [a b]. cbn [smooth_pass fst].
  assert (H : forall l left, snd (last l (0, false)) = false -> smooth_rest y left l = l <-> halfway left l).
  { clear. induction l as [|[x b] l IH]; intros left h; [cbn; tauto|]. destruct l as [|[z c] l].
    - cbn in *. subst b. tauto.
    - cbn [smooth_rest halfway]. change (last ((x, b) :: (z, c) :: l) (0, false)) with (last ((z, c) :: l) (0, false)) in h. split.
      + intros e. injection e as e1 e2 e3. assert (ex : (if b then (left + x + z) / 3 else x) = x) by exact e1. split; [intros ->; lra|].
        apply (IH x h). rewrite ex in e2, e3. cbn [smooth_rest]. congruence.
      + intros [e1 e2]. assert (ex : (if b then (left + x + z) / 3 else x) = x) by (destruct b; [specialize (e1 eq_refl); lra|reflexivity]).
        rewrite ex. apply (IH x h) in e2. cbn [smooth_rest] in e2. rewrite e2. reflexivity. }
  intros h. specialize (H l a h). rewrite <- H. split; [intros e; congruence|intros ->; reflexivity].
Qed.
Example C196_smoothing_ex : halfway 0 [(1, true); (2, true); (3, false)] /\ smooth_pass 7 [(0, false); (1, true); (2, true); (3, false)] = [(0, false); (1, true); (2, true); (3, false)].
Proof. assert (h : halfway 0 [(1, true); (2, true); (3, false)]) by (cbn; repeat split; intros; lra). split; [exact h|]. apply C196_smoothing; [reflexivity|exact h]. Qed.

(** Proofs about QwUnitModel: band edges (C168), densities of states (C169), absorption (C170) and
    the effective layers (C171). *)
From Coq Require Import Reals String List Bool Arith Lra Lia Psatz.
From Verif Require Import Common PhysConst NpModel InterpModel InterpProps DetBalModel QwUnitModel QwUnitProps.
From Coq Require Import List.
Import ListNotations.
Open Scope R_scope.
Open Scope list_scope.

(** * Loops that change the material of one layer after the other *)
Section Loop.
Context {T : Type} (mt : T -> nat) (f : T -> mat -> mat).
Definition change (M : nat -> mat) (t : T) : nat -> mat := upd M (mt t) (f t (M (mt t))).
Lemma change_other ts : forall M k, ~ In k (map mt ts) -> fold_left change ts M k = M k.
Proof.
  induction ts as [|t ts IH]; intros M k H; [reflexivity|]. cbn [fold_left]. rewrite IH by (intros K; apply H; now right).
  unfold change. apply upd_other. intros ->. apply H. now left.
Qed.
Lemma change_same ts : forall M, NoDup (map mt ts) -> forall t, In t ts -> fold_left change ts M (mt t) = f t (M (mt t)).
Proof.
  induction ts as [|t ts IH]; intros M N t' Ht; [contradiction|]. cbn [fold_left]. cbn [map] in N. inversion N as [|? ? N1 N2]; subst. destruct Ht as [->|Ht].
  - rewrite change_other by exact N1. unfold change. apply upd_same.
  - rewrite IH by assumption. f_equal. unfold change. apply upd_other. intros E. apply N1. rewrite <- E. now apply in_map.
Qed.
Lemma change_last ts t : forall M, exists m, fold_left change (ts ++ [t]) M (mt t) = f t m.
Proof. intros M. rewrite fold_left_app. cbn [fold_left]. unfold change at 1. rewrite upd_same. eexists. reflexivity. Qed.
End Loop.
Lemma nth_error_combine {A B} (a : list A) (b : list B) k x y : nth_error a k = Some x -> nth_error b k = Some y -> nth_error (combine a b) k = Some (x, y).
Proof.
  revert b k. induction a as [|a0 a IH]; intros [|b0 b] [|k] Ha Hb; cbn in *; try discriminate; [congruence|]. now apply IH.
Qed.
Lemma nth_error_in_range {A} (l : list A) k d : (k < length l)%nat -> nth_error l k = Some (nth k l d).
Proof. revert k. induction l as [|x l IH]; intros [|k] H; cbn in *; try lia; [reflexivity|]. apply IH. lia. Qed.
Lemma averages_length x y : forall ws a vs, averages x y a ws = Ok vs -> length vs = length ws.
Proof.
  induction ws as [|w ws IH]; intros a vs H; cbn [averages] in H; [injection H as <-; reflexivity|].
  destruct (part x x a (a + w)); [discriminate|]. destruct (averages x y (a + w) ws) as [vs'|] eqn:E; [|discriminate]. cbn [bindR] in H.
  assert (E' : length vs = S (length vs')) by (injection H as <-; reflexivity). rewrite E'. cbn. f_equal. eapply IH. exact E.
Qed.
Lemma map_fst_combine {A B} (a : list A) (b : list B) : length a = length b -> map fst (combine a b) = a.
Proof. revert b. induction a as [|x a IH]; intros [|y b] H; cbn in *; try discriminate; [reflexivity|]. f_equal. apply IH. lia. Qed.
Lemma map_snd_combine {A B} (a : list A) (b : list B) : length a = length b -> map snd (combine a b) = b.
Proof. revert b. induction a as [|x a IH]; intros [|y b] H; cbn in *; try discriminate; [reflexivity|]. f_equal. apply IH. lia. Qed.

(** * C168 *)
Section Edges.
Context (kp8x8 : mat -> (R * R * R) * (R * R * R)) (strain : mat -> R * R * R).
Notation item := (nat * (kp_values * (option R * option R)))%type.
Lemma edges_layers T (ts : list item) : forall hp, NoDup (map fst ts) ->
  (forall t, In t ts -> layers (fold_left (edge_step T) ts hp) (fst t) = set_edges (fst (snd t)) (fst (snd (snd t))) (snd (snd (snd t))) (layers hp (fst t))) /\
  (forall i, ~ In i (map fst ts) -> layers (fold_left (edge_step T) ts hp) i = layers hp i).
Proof.
  induction ts as [|t ts IH]; intros hp N; cbn [fold_left]; [split; [intros t []|reflexivity]|]. cbn [map] in N. inversion N as [|? ? N1 N2]; subst.
  destruct (IH (edge_step T hp t) N2) as (I1 & I2).
  assert (E0 : layers (edge_step T hp t) (fst t) = set_edges (fst (snd t)) (fst (snd (snd t))) (snd (snd (snd t))) (layers hp (fst t))).
  { unfold edge_step. cbn [set_layer set_mat layers mats]. apply upd_same. }
  assert (E1 : forall i, i <> fst t -> layers (edge_step T hp t) i = layers hp i).
  { intros i Hi. unfold edge_step. cbn [set_layer set_mat layers mats]. now apply upd_other. }
  split.
  - intros t' [<-|Ht]; [rewrite I2 by exact N1; exact E0|]. rewrite I1 by exact Ht. f_equal. apply E1. intros E. apply N1. rewrite <- E. now apply in_map.
  - intros i Hi. rewrite I2 by (intros K; apply Hi; now right). apply E1. intros ->. apply Hi. now left.
Qed.
Lemma edge_keeps T t hp i : l_material (layers (edge_step T hp t) i) = l_material (layers hp i) /\ l_width (layers (edge_step T hp t) i) = l_width (layers hp i).
Proof.
  unfold edge_step. cbn [set_layer set_mat layers mats]. destruct (Nat.eq_dec i (fst t)) as [->|Ni]; [rewrite upd_same|rewrite upd_other by exact Ni]; split; reflexivity.
Qed.
Lemma edges_mats T (ts : list item) : forall hp,
  mats (fold_left (edge_step T) ts hp) = fold_left (change (fun t : item => l_material (layers hp (fst t))) (fun t => set_masses T (fst (snd t)))) ts (mats hp) /\
  forall i, l_material (layers (fold_left (edge_step T) ts hp) i) = l_material (layers hp i) /\ l_width (layers (fold_left (edge_step T) ts hp) i) = l_width (layers hp i).
Proof.
  induction ts as [|t ts IH]; intros hp; cbn [fold_left]; [split; [reflexivity|auto]|]. destruct (IH (edge_step T hp t)) as (I1 & I2). split.
  - rewrite I1. assert (EM : mats (edge_step T hp t) = change (fun t : item => l_material (layers hp (fst t))) (fun t => set_masses T (fst (snd t))) (mats hp) t) by reflexivity.
    rewrite EM. clear. generalize (change (fun t : item => l_material (layers hp (fst t))) (fun t => set_masses T (fst (snd t))) (mats hp) t).
    induction ts as [|t' ts IH]; intros M; [reflexivity|]. cbn [fold_left]. rewrite <- IH. f_equal. unfold change. now rewrite (proj1 (edge_keeps T t hp (fst t'))).
  - intros i. rewrite (proj1 (I2 i)), (proj2 (I2 i)). apply edge_keeps.
Qed.
Lemma c_shift_pos e v : 0 <= c_shift e v.
Proof. unfold c_shift. destruct (Rlt_dec v e); lra. Qed.
Lemma h_shift_neg e v : h_shift e v <= 0.
Proof. unfold h_shift. destruct (Rlt_dec e v); lra. Qed.
(** What the function works out before its loop. *)
Lemma band_edges_inv u mode s hp hp' : band_edges kp8x8 strain u mode s hp = Ok hp' -> exists e0 hh0 lh0 se sh,
  nth_error (s_Ee s) 0 = Some e0 /\ nth_error (s_Ehh s) 0 = Some hh0 /\ nth_error (s_Elh s) 0 = Some lh0 /\
  averages (s_x s) (map (c_shift e0) (s_Ve s)) 0 (widths_of u hp) = Ok se /\
  averages (s_x s) (map (h_shift (Rmax hh0 lh0)) (max_vb s)) 0 (widths_of u hp) = Ok sh /\
  hp' = fold_left (edge_step (u_T u)) (combine (u_layers u) (combine (map (fun i => recalculate_kp kp8x8 strain mode (mats hp (l_material (layers hp i)))) (u_layers u)) (combine se sh))) hp.
Proof.
  unfold band_edges. intros H. destruct (s_Ee s) as [|e0 Ee]; cbn [QwUnitModel.head bindR] in H; [discriminate H|]. destruct (s_Ehh s) as [|hh0 Ehh]; cbn [QwUnitModel.head bindR] in H; [discriminate H|].
  destruct (s_Elh s) as [|lh0 Elh]; cbn [QwUnitModel.head bindR] in H; [discriminate H|].
  destruct (averages (s_x s) (map (c_shift e0) (s_Ve s)) 0 (widths_of u hp)) as [se|] eqn:E1; [|cbn [bindR] in H; discriminate H]. cbn [bindR] in H.
  destruct (averages (s_x s) (map (h_shift (Rmax hh0 lh0)) (max_vb s)) 0 (widths_of u hp)) as [sh|] eqn:E2; [|cbn [bindR] in H; discriminate H]. cbn [bindR] in H.
  exists e0, hh0, lh0, se, sh. repeat split; auto; try congruence.
Qed.
(** The item of layer [k] in the loop. *)
Lemma item_of u mode (hp : heap) (se sh : list (option R)) k : (k < length (u_layers u))%nat -> length se = length (u_layers u) -> length sh = length (u_layers u) ->
  let ts := combine (u_layers u) (combine (map (fun i => recalculate_kp kp8x8 strain mode (mats hp (l_material (layers hp i)))) (u_layers u)) (combine se sh)) in
  In (nth k (u_layers u) 0%nat, (recalculate_kp kp8x8 strain mode (mats hp (l_material (layers hp (nth k (u_layers u) 0%nat)))), (nth k se None, nth k sh None))) ts /\
  map fst ts = u_layers u.
Proof.
  intros Hk L1 L2 ts. set (vs := map (fun i => recalculate_kp kp8x8 strain mode (mats hp (l_material (layers hp i)))) (u_layers u)) in *.
  assert (LV : length vs = length (u_layers u)) by (unfold vs; now rewrite map_length). split.
  - apply (nth_error_In ts k). unfold ts. apply nth_error_combine; [now apply nth_error_in_range|]. apply nth_error_combine.
    + unfold vs. rewrite nth_error_map, (nth_error_in_range _ k 0%nat) by exact Hk. reflexivity.
    + apply nth_error_combine; apply nth_error_in_range; lia.
  - unfold ts. apply map_fst_combine. rewrite !combine_length. lia.
Qed.
(** The gap of a layer under the strain of the substrate, and its affinity. *)
Definition bulk_gap (mode : string) (m : mat) : R :=
  if String.eqb mode "kp8x8_bulk" then fst (fst (fst (kp8x8 m))) - Rmax (snd (fst (fst (kp8x8 m)))) (snd (fst (kp8x8 m)))
  else m_gap m + fst (fst (strain m)) + Rmax (snd (fst (strain m))) (snd (strain m)).
Definition bulk_affinity (mode : string) (m : mat) : R :=
  if String.eqb mode "kp8x8_bulk" then m_affinity m - (fst (fst (fst (kp8x8 m))) - (m_vbo m + m_gap m)) else m_affinity m - fst (fst (strain m)).
(** Confinement widens the gap of a layer and lowers its affinity, by no more than the distance of
    the ground states from the band edges in the layer; a layer whose band edges are both outside the
    ground states is not changed. *)
Theorem C168_edges_partial : forall u mode s hp hp' k e0 hh0 lh0, NoDup (u_layers u) -> increasing (s_x s) -> at_ (s_x s) 0 <= 0 ->
  length (s_Ve s) = length (s_x s) -> length (s_Vhh s) = length (s_x s) -> length (s_Vlh s) = length (s_x s) ->
  (forall w, In w (widths_of u hp) -> 0 < w) -> band_edges kp8x8 strain u mode s hp = Ok hp' -> (k < length (u_layers u))%nat ->
  nth_error (s_Ee s) 0 = Some e0 -> nth_error (s_Ehh s) 0 = Some hh0 -> nth_error (s_Elh s) 0 = Some lh0 ->
  let l := layers hp (nth k (u_layers u) 0%nat) in let l' := layers hp' (nth k (u_layers u) 0%nat) in
  let inside j := (j < length (s_x s))%nat /\ start (widths_of u hp) k <= at_ (s_x s) j < start (widths_of u hp) (S k) in
  l_gap l' = bulk_gap mode (mats hp (l_material l)) /\ l_affinity l' = bulk_affinity mode (mats hp (l_material l)) /\
  l_width l' = l_width l /\ l_material l' = l_material l /\ l_role l' = l_role l /\
  forall g a, l_eff_gap l' = Some g -> l_eff_affinity l' = Some a ->
    l_gap l' <= g /\ a <= l_affinity l' /\ g + a >= l_gap l' + l_affinity l' /\
    (forall V, V <= e0 -> (forall j, inside j -> V <= at_ (s_Ve s) j) -> l_affinity l' - (e0 - V) <= a) /\
    ((forall j, inside j -> e0 <= at_ (s_Ve s) j) -> a = l_affinity l') /\
    ((forall j, inside j -> e0 <= at_ (s_Ve s) j /\ at_ (s_Vhh s) j <= Rmax hh0 lh0 /\ at_ (s_Vlh s) j <= Rmax hh0 lh0) -> g = l_gap l').
Proof.
  intros u mode s hp hp' k e0 hh0 lh0 ND Hx H0 L1 L2 L3 Hw H Hk He Hh Hl l l' inside.
  destruct (band_edges_inv _ _ _ _ _ H) as (e0' & hh0' & lh0' & se & sh & E1 & E2 & E3 & A1 & A2 & EH).
  assert (e0' = e0) by congruence. assert (hh0' = hh0) by congruence. assert (lh0' = lh0) by congruence. subst e0' hh0' lh0'.
  assert (LW : length (widths_of u hp) = length (u_layers u)) by (unfold widths_of; now rewrite map_length).
  assert (LS : length se = length (u_layers u)) by (rewrite (averages_length _ _ _ _ _ A1); exact LW).
  assert (LH : length sh = length (u_layers u)) by (rewrite (averages_length _ _ _ _ _ A2); exact LW).
  destruct (item_of u mode hp se sh k Hk LS LH) as (IT & FS). cbv zeta in IT, FS.
  set (ts := combine (u_layers u) _) in *. assert (NT : NoDup (map fst ts)) by (rewrite FS; exact ND).
  destruct (edges_layers (u_T u) ts hp NT) as (EL & _). specialize (EL _ IT). cbn [fst snd] in EL. rewrite <- EH in EL. fold l l' in EL.
  set (v := recalculate_kp kp8x8 strain mode (mats hp (l_material l))) in *.
  assert (VG : v_gap v = bulk_gap mode (mats hp (l_material l))) by (unfold v, recalculate_kp, bulk_gap; destruct (String.eqb mode "kp8x8_bulk"); reflexivity).
  assert (VA : v_affinity v = bulk_affinity mode (mats hp (l_material l))).
  { unfold v, recalculate_kp, bulk_affinity; destruct (String.eqb mode "kp8x8_bulk"); cbn [v_affinity]; [ring|reflexivity]. }
  rewrite EL. cbn [set_edges l_gap l_affinity l_width l_material l_role l_eff_gap l_eff_affinity]. split; [exact VG|]. split; [exact VA|].
  split; [reflexivity|]. split; [reflexivity|]. split; [reflexivity|]. intros g a HG HA.
  destruct (nth k se None) as [x|] eqn:XS; [|discriminate]. destruct (nth k sh None) as [y|] eqn:YS; [|discriminate]. cbn [opt2 option_map] in HG, HA.
  assert (Eg : g = v_gap v + x - y) by congruence. assert (Ea : a = v_affinity v - x) by congruence. clear HG HA.
  assert (LC : length (map (c_shift e0) (s_Ve s)) = length (s_x s)) by (rewrite map_length; exact L1).
  assert (LM : length (max_vb s) = length (s_x s)) by (unfold max_vb; rewrite map_length, combine_length; lia).
  assert (LC' : length (map (h_shift (Rmax hh0 lh0)) (max_vb s)) = length (s_x s)) by (rewrite map_length; exact LM).
  assert (NX : nth_error se k = Some (Some x)) by (rewrite (nth_error_in_range _ k None) by lia; now rewrite XS).
  assert (NY : nth_error sh k = Some (Some y)) by (rewrite (nth_error_in_range _ k None) by lia; now rewrite YS).
  assert (BX : forall lo hi, (forall j, inside j -> lo <= c_shift e0 (at_ (s_Ve s) j) <= hi) -> lo <= x <= hi).
  { intros lo hi HB. apply (C167_average _ _ _ _ k x lo hi Hx LC H0 Hw A1 NX). intros j Hj HI.
    rewrite (nth_indep _ 0 (c_shift e0 0)) by (rewrite LC; exact Hj). rewrite map_nth. apply HB. split; assumption. }
  assert (BY : forall lo hi, (forall j, inside j -> lo <= h_shift (Rmax hh0 lh0) (at_ (max_vb s) j) <= hi) -> lo <= y <= hi).
  { intros lo hi HB. apply (C167_average _ _ _ _ k y lo hi Hx LC' H0 Hw A2 NY). intros j Hj HI.
    rewrite (nth_indep _ 0 (h_shift (Rmax hh0 lh0) 0)) by (rewrite LC'; exact Hj). rewrite map_nth. apply HB. split; assumption. }
  assert (MV : forall j, (j < length (s_x s))%nat -> at_ (max_vb s) j = Rmax (at_ (s_Vhh s) j) (at_ (s_Vlh s) j)).
  { intros j Hj. unfold max_vb. set (f := fun p : R * R => if Rlt_dec (snd p) (fst p) then fst p else snd p).
    rewrite (nth_indep _ 0 (f (0, 0))) by (rewrite map_length, combine_length; lia). rewrite map_nth, combine_nth by lia. unfold f. cbn [fst snd].
    unfold Rmax. destruct (Rlt_dec _ _), (Rle_dec _ _); lra. }
  (* bounds of a finite set of values *)
  assert (FB : forall f : nat -> R, exists M, forall j, (j < length (s_x s))%nat -> Rabs (f j) <= M).
  { intros f. generalize (length (s_x s)) as N. clear. induction N as [|n (M & IH)]; [exists 0; intros j Hj; lia|]. exists (Rmax M (Rabs (f n))). intros j Hj.
    destruct (Nat.eq_dec j n) as [->|Nj]; [apply Rmax_r|]. eapply Rle_trans; [apply IH; lia|apply Rmax_l]. }
  assert (X0 : 0 <= x).
  { destruct (FB (fun j => c_shift e0 (at_ (s_Ve s) j))) as (M & HM). apply (BX 0 M). intros j [Hj _]. specialize (HM j Hj). pose proof (c_shift_pos e0 (at_ (s_Ve s) j)).
    rewrite Rabs_right in HM by lra. lra. }
  assert (Y0 : y <= 0).
  { destruct (FB (fun j => h_shift (Rmax hh0 lh0) (at_ (max_vb s) j))) as (M & HM). apply (BY (- M) 0). intros j [Hj _]. specialize (HM j Hj).
    pose proof (h_shift_neg (Rmax hh0 lh0) (at_ (max_vb s) j)). rewrite Rabs_left1 in HM by lra. lra. }
  split; [lra|]. split; [lra|]. split; [lra|]. split.
  { intros V HV HI. assert (x <= e0 - V); [|lra]. apply (BX 0 (e0 - V)). intros j Hj. specialize (HI j Hj). unfold c_shift. destruct (Rlt_dec _ _); lra. }
  assert (XZ : (forall j, inside j -> e0 <= at_ (s_Ve s) j) -> x = 0).
  { intros HI. assert (0 <= x <= 0); [|lra]. apply BX. intros j Hj. specialize (HI j Hj). unfold c_shift. destruct (Rlt_dec _ _); lra. }
  split; [intros HI; rewrite Ea, (XZ HI); ring|].
  intros HI. rewrite Eg, XZ by (intros j Hj; apply (HI j Hj)). assert (0 <= y <= 0); [|lra]. apply BY. intros j Hj. destruct (HI j Hj) as (_ & H2 & H3). destruct Hj as [Hj _].
  rewrite MV by exact Hj. unfold h_shift. assert (Rmax (at_ (s_Vhh s) j) (at_ (s_Vlh s) j) <= Rmax hh0 lh0) by (now apply Rmax_lub). destruct (Rlt_dec _ _); lra.
Qed.
Lemma nodup_mats u hp : NoDup (map (fun i => l_material (layers hp i)) (u_layers u)) -> NoDup (u_layers u).
Proof. apply NoDup_map_inv. Qed.
(** The masses are in kg afterwards and the effective densities of states those of the masses. *)
Theorem C168_masses_partial : forall u mode s hp hp' k, NoDup (map (fun i => l_material (layers hp i)) (u_layers u)) ->
  band_edges kp8x8 strain u mode s hp = Ok hp' -> (k < length (u_layers u))%nat ->
  let i := l_material (layers hp (nth k (u_layers u) 0%nat)) in let m := mats hp i in let m' := mats hp' i in
  (mode = "kp8x8_bulk"%string -> m_me m' = fst (fst (snd (kp8x8 m))) /\ m_mhh m' = snd (fst (snd (kp8x8 m))) /\ m_mlh m' = snd (snd (kp8x8 m))) /\
  (mode <> "kp8x8_bulk"%string -> m_me m' = m_me m * electron_mass /\ m_mhh m' = m_mhh m * electron_mass /\ m_mlh m' = m_mlh m * electron_mass) /\
  m_Ncc m' = 2 * rpow (2 * PI * m_me m' * kb * u_T u / h ^ 2) (3 / 2) /\ m_Nvhh m' = 2 * rpow (2 * PI * m_mhh m' * kb * u_T u / h ^ 2) (3 / 2) /\
  m_Nvlh m' = 2 * rpow (2 * PI * m_mlh m' * kb * u_T u / h ^ 2) (3 / 2) /\ m_gap m' = m_gap m /\ m_affinity m' = m_affinity m /\ m_k m' = m_k m /\ m_n m' = m_n m /\
  m_absorption m' = m_absorption m.
Proof.
  intros u mode s hp hp' k ND H Hk i m m'.
  destruct (band_edges_inv _ _ _ _ _ H) as (e0 & hh0 & lh0 & se & sh & E1 & E2 & E3 & A1 & A2 & EH).
  assert (LW : length (widths_of u hp) = length (u_layers u)) by (unfold widths_of; now rewrite map_length).
  assert (LS : length se = length (u_layers u)) by (rewrite (averages_length _ _ _ _ _ A1); exact LW).
  assert (LH : length sh = length (u_layers u)) by (rewrite (averages_length _ _ _ _ _ A2); exact LW).
  destruct (item_of u mode hp se sh k Hk LS LH) as (IT & FS). cbv zeta in IT, FS. set (ts := combine (u_layers u) _) in *.
  assert (NT : NoDup (map (fun t : item => l_material (layers hp (fst t))) ts)).
  { replace (map (fun t : item => l_material (layers hp (fst t))) ts) with (map (fun i => l_material (layers hp i)) (map fst ts)) by (rewrite map_map; reflexivity).
    rewrite FS. exact ND. }
  destruct (edges_mats (u_T u) ts hp) as (EM & _). rewrite <- EH in EM.
  assert (Em : m' = set_masses (u_T u) (recalculate_kp kp8x8 strain mode m) m).
  { unfold m'. rewrite EM. exact (change_same _ _ ts (mats hp) NT _ IT). }
  rewrite Em. unfold set_masses, dos. cbn [m_me m_mhh m_mlh m_Ncc m_Nvhh m_Nvlh m_gap m_affinity m_k m_n m_absorption].
  split; [intros ->; split; [|split]; reflexivity|]. split; [|repeat split; reflexivity].
  intros NM. apply String.eqb_neq in NM. unfold recalculate_kp. rewrite NM. split; [|split]; reflexivity.
Qed.
Lemma electron_mass_small : electron_mass < 1.
Proof. Local Transparent electron_mass. unfold electron_mass. lra. Local Opaque electron_mass. Qed.
(** Solving again in the other modes multiplies the masses by the electron mass once more. *)
Theorem C168_again_refuted : forall u mode s hp h1 h2 k, NoDup (map (fun i => l_material (layers hp i)) (u_layers u)) -> mode <> "kp8x8_bulk"%string ->
  band_edges kp8x8 strain u mode s hp = Ok h1 -> band_edges kp8x8 strain u mode s h1 = Ok h2 -> (k < length (u_layers u))%nat ->
  let i := l_material (layers hp (nth k (u_layers u) 0%nat)) in 0 < m_me (mats hp i) ->
  m_me (mats h2 i) = m_me (mats hp i) * electron_mass * electron_mass /\ m_me (mats h2 i) <> m_me (mats h1 i).
Proof.
  intros u mode s hp h1 h2 k ND NM H1 H2 Hk i Pm.
  destruct (C168_masses_partial u mode s hp h1 k ND H1 Hk) as (_ & M1 & _). destruct (M1 NM) as (M & _). fold i in M.
  destruct (band_edges_inv _ _ _ _ _ H1) as (e0 & hh0 & lh0 & se & sh & _ & _ & _ & _ & _ & EH).
  match type of EH with _ = fold_left _ ?t _ => destruct (edges_mats (u_T u) t hp) as (_ & K) end. rewrite <- EH in K.
  assert (ND1 : NoDup (map (fun i => l_material (layers h1 i)) (u_layers u))).
  { replace (map (fun i => l_material (layers h1 i)) (u_layers u)) with (map (fun i => l_material (layers hp i)) (u_layers u)); [exact ND|]. apply map_ext. intros j. symmetry. apply K. }
  destruct (C168_masses_partial u mode s h1 h2 k ND1 H2 Hk) as (_ & M2 & _). destruct (M2 NM) as (M' & _). rewrite (proj1 (K _)) in M'. fold i in M'.
  rewrite M', M. split; [reflexivity|]. pose proof electron_mass_pos. pose proof electron_mass_small. set (x := electron_mass) in *. clearbody x.
  assert (0 < m_me (mats hp i) * x) by (apply Rmult_lt_0_compat; lra). set (y := m_me (mats hp i) * x) in *. clearbody y. nra.
Qed.
(** In the other modes the gap under strain has the wrong sign in the shift of the valence band: the
    distance of the strained band edges (quantum_mechanics/structure_utilities.py:219-221) is
    smaller by twice the shift. *)
Theorem C168_strain_refuted : forall mode m, mode <> "kp8x8_bulk"%string ->
  let dc := fst (fst (strain m)) in let dhh := snd (fst (strain m)) in let dlh := snd (strain m) in
  let Ec := m_vbo m + m_gap m + dc in let Ev := Rmax (m_vbo m + dhh) (m_vbo m + dlh) in
  v_gap (recalculate_kp kp8x8 strain mode m) = Ec - Ev + 2 * Rmax dhh dlh /\ (Rmax dhh dlh <> 0 -> v_gap (recalculate_kp kp8x8 strain mode m) <> Ec - Ev).
Proof.
  intros mode m NM dc dhh dlh Ec Ev. apply String.eqb_neq in NM. unfold recalculate_kp. rewrite NM. cbn [v_gap]. fold dc dhh dlh. unfold Ec, Ev.
  assert (E : Rmax (m_vbo m + dhh) (m_vbo m + dlh) = m_vbo m + Rmax dhh dlh) by (unfold Rmax; destruct (Rle_dec _ _), (Rle_dec dhh dlh); lra).
  rewrite E. split; [ring|]. intros N. intros K. apply N. lra.
Qed.
End Edges.

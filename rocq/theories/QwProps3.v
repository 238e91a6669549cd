(** Properties C122 (band edges after alignment) and C123 (the mesh of the potentials
    resolves every layer). *)
From Coq Require Import Reals String List Bool ZArith Lra Lia.
From Verif Require Import Common InterpModel NpModel StructModel StructProps StrainModel StrainProps
  DetBalModel DetBalProps SmoothModel SmoothProps QwModel QwProps QwProps2.
From Coq Require Import List.
Import ListNotations.
Open Scope string_scope.
Open Scope R_scope.
Open Scope list_scope.

(** * C122 *)

(** What alignment does to one layer: the valence edge is the valence band offset of
    the material and the conduction edge lies a gap above; nothing else changes. *)
Definition aligned (l l' : qlayer) : Prop :=
  q_width l' = q_width l /\ q_mat l' = q_mat l /\
  exists ev ec, q_Ev l' = Some ev /\ q_Ec l' = Some ec /\ ev = m_vbo (q_mat l) /\ ec - ev = m_gap (q_mat l).

Lemma align_loop ls : forall h,
  let h' := fold_left (fun h r =>
    let l := h r in
    hset h r {| q_width := q_width l; q_mat := q_mat l;
                q_Ec := Some (m_vbo (q_mat l) + m_gap (q_mat l)); q_Ev := Some (m_vbo (q_mat l)) |}) ls h in
  (forall r, In r ls -> aligned (h r) (h' r)) /\ (forall r, ~ In r ls -> h' r = h r).
Proof.
  induction ls as [|a ls IH]; intros h; [split; [intros r []|reflexivity]|].
  cbn [fold_left]. cbv zeta in *. set (h1 := hset h a _).
  destruct (IH h1) as [H1 H2].
  assert (A : aligned (h a) (h1 a)).
  { unfold h1, hset. rewrite Nat.eqb_refl. split; [reflexivity|]. split; [reflexivity|].
    do 2 eexists. split; [reflexivity|]. split; [reflexivity|]. split; [reflexivity|]. ring. }
  assert (O : forall r, r <> a -> h1 r = h r).
  { intros r N. unfold h1, hset. now rewrite (proj2 (Nat.eqb_neq r a) N). }
  split.
  - intros r Hr. destruct (Nat.eq_dec r a) as [->|N].
    + destruct (in_dec Nat.eq_dec a ls) as [I|I]; [|rewrite (H2 a I); exact A].
      destruct (H1 a I) as (W & M & ev & ec & E1 & E2 & E3 & E4). destruct A as (W' & M' & _).
      rewrite M' in E3, E4. split; [now rewrite W|]. split; [now rewrite M|]. exists ev, ec. auto.
    + destruct Hr as [->|Hr]; [contradiction|]. rewrite <- (O r N). now apply H1.
  - intros r Hr. rewrite H2 by (intros I; apply Hr; now right). apply O. intros ->. apply Hr. now left.
Qed.

(** C122: after [VBO_align] every layer of the structure is aligned (also layers the
    structure holds several times) and no other layer is touched. *)
Theorem C122_aligned : forall h s,
  (forall r, In r (layers s) -> aligned (h r) (VBO_align h s r)) /\
  (forall r, ~ In r (layers s) -> VBO_align h s r = h r).
Proof. intros h s. apply align_loop. Qed.
(** Aligning again changes nothing. *)
Theorem C122_again : forall h s r, VBO_align (VBO_align h s) s r = VBO_align h s r.
Proof.
  intros h s r. destruct (C122_aligned h s) as [A1 O1]. destruct (C122_aligned (VBO_align h s) s) as [A2 O2].
  destruct (in_dec Nat.eq_dec r (layers s)) as [I|I]; [|now apply O2].
  destruct (A1 r I) as (W1 & M1 & v1 & c1 & V1 & C1 & X1 & Y1). destruct (A2 r I) as (W2 & M2 & v2 & c2 & V2 & C2 & X2 & Y2).
  rewrite M1 in X2, Y2. assert (v2 = v1) by congruence. assert (c2 = c1) by lra. subst v2 c2.
  destruct (VBO_align (VBO_align h s) s r), (VBO_align h s r). cbn in *. congruence.
Qed.
Example C122_example :
  In 1%nat (layers ex_struct) /\ ~ In 2%nat (layers ex_struct) /\
  q_Ec (VBO_align ex_heap ex_struct 1) = Some (m_vbo ex_mat + m_gap ex_mat) /\ q_Ec (VBO_align ex_heap ex_struct 2) = Some 7.
Proof. simpl. repeat split; auto. intros [E|[E|[]]]; discriminate. Qed.

(** * C123 *)

Lemma Rtrunc_nonneg r : 0 <= r -> IZR (Rtrunc r) <= r < IZR (Rtrunc r) + 1.
Proof.
  intros H. unfold Rtrunc. destruct (Rle_dec 0 r); [|contradiction]. destruct (archimed r) as [A B].
  rewrite minus_IZR. lra.
Qed.
Lemma min_list_spec l : forall a, (min_list a l = a \/ In (min_list a l) l) /\ min_list a l <= a /\ forall b, In b l -> min_list a l <= b.
Proof.
  induction l as [|c l IH]; intros a; cbn [min_list]; [split; [now left|]; split; [lra|intros b []]|].
  destruct (IH (Rmin a c)) as (E & L & F). split; [|split].
  - destruct E as [->|I]; [|right; now right]. unfold Rmin. destruct (Rle_dec a c); [now left|right; now left].
  - pose proof (Rmin_l a c). lra.
  - intros b [->|I]; [pose proof (Rmin_r a b); lra|now apply F].
Qed.

(** C123: without an explicit number of points, and for layers of positive thickness,
    the mesh has at least [min_step] points, runs from 0 to the total thickness, and the
    distance between neighbouring points is less than the thickness of every layer
    divided by [feature_steps] - 2; it is no finer than [feature_steps] per thinnest
    layer unless [min_step] demands it. *)
Theorem C123_mesh : forall kp8 h s sub a x ps,
  structure_to_potentials kp8 h s sub a = Ok (x, ps) ->
  a_step a = None -> 2 < a_feature_steps a -> (2 <= a_min_step a)%Z ->
  (forall r, In r (layers s) -> 0 < q_width (h r)) ->
  let total := sumR (map (fun r => q_width (h r)) (layers s)) in
  (a_min_step a <= Z.of_nat (length x))%Z /\
  nth 0 x 0 = 0 /\ nth (length x - 1) x 0 = total /\
  (forall i r, (i + 1 < length x)%nat -> In r (layers s) ->
     0 < nth (i + 1) x 0 - nth i x 0 < q_width (h r) / (a_feature_steps a - 2)) /\
  (Z.of_nat (length x) = a_min_step a \/
   exists r, In r (layers s) /\ INR (length x) * q_width (h r) <= a_feature_steps a * total).
Proof.
  intros kp8 h s sub a x ps H St Hf Hm Hw total.
  apply potentials_ok in H as (m & n & fs & _ & Hs & Hn & Hx & _).
  set (ws := map (fun r => q_width (h r)) (layers s)) in *.
  assert (Pw : forall w, In w ws -> 0 < w) by (intros w I; apply in_map_iff in I as (r & <- & I); now apply Hw).
  assert (Wm : forall r, In r (layers s) -> In (q_width (h r)) ws) by (intros r I; apply in_map_iff; now exists r).
  assert (Wi : forall w, In w ws -> exists r, q_width (h r) = w /\ In r (layers s)) by (intros w I; now apply in_map_iff in I).
  assert (Et : sumR ws = total) by reflexivity. clearbody total ws. rewrite Et in Hx.
  unfold mesh_size in Hn. rewrite St, Et in Hn. revert Hn.
  destruct ws as [|w0 wl]; [discriminate|].
  destruct (Req_EM_T _ 0) as [Z0|NZ]; [discriminate|]. intros [= Hn].
  destruct (min_list_spec wl w0) as (Em & Lm & Fm). set (mn := min_list w0 wl) in *.
  assert (Im : In mn (w0 :: wl)) by (destruct Em as [->|I]; [now left|now right]).
  assert (Pm : 0 < mn) by now apply Pw.
  assert (Mw : forall w, In w (w0 :: wl) -> mn <= w) by (intros w [<-|I]; [assumption|now apply Fm]).
  assert (Tot : mn <= total /\ 0 < total).
  { rewrite <- Et. clear - Pw Mw Pm.
    assert (G : forall l, (forall w, In w l -> 0 < w) -> 0 <= sumR l).
    { intros l. induction l as [|b l IH]; intros P; [unfold sumR; simpl; lra|].
      assert (0 < b) by (apply P; now left). assert (0 <= sumR l) by (apply IH; intros; apply P; now right).
      rewrite sumR_cons. lra. }
    pose proof (Mw w0 (or_introl eq_refl)). pose proof (G wl (fun w I => Pw w (or_intror I))).
    rewrite sumR_cons. lra. }
  destruct Tot as [Tm Tp].
  assert (Hr : 0 <= a_feature_steps a / mn * total).
  { apply Rmult_le_pos; [|lra]. apply Rlt_le, Rdiv_lt_0_compat; lra. }
  destruct (Rtrunc_nonneg _ Hr) as [T1 T2].
  assert (Nb : (a_min_step a <= n)%Z) by lia.
  assert (Nl : Z.of_nat (length x) = n) by (rewrite Hx, linspace_length, Z2Nat.id; lia).
  assert (In' : INR (length x) = IZR n) by (rewrite INR_IZR_INZ, Nl; reflexivity).
  assert (L2 : (2 <= length x)%nat) by lia.
  assert (Big : a_feature_steps a * total < (INR (length x) + 1) * mn).
  { rewrite In'. assert (IZR (Rtrunc (a_feature_steps a / mn * total)) <= IZR n) by (apply IZR_le; lia).
    assert (E : a_feature_steps a * total = a_feature_steps a / mn * total * mn) by (field; lra).
    rewrite E. apply Rmult_lt_compat_r; lra. }
  assert (Lx : length x = Z.to_nat n) by lia.
  assert (Nth : forall i, (i < length x)%nat -> nth i x 0 = INR i * (total / INR (length x - 1))).
  { intros i Hi. rewrite Lx in *. rewrite Hx. rewrite linspace_nth by lia. unfold Rdiv. 
    rewrite ?Rminus_0_r, ?Rplus_0_l. ring. }
  assert (Pn : 0 < INR (length x - 1)) by (apply lt_0_INR; lia).
  split; [lia|]. split; [rewrite Nth by lia; simpl; ring|]. split; [rewrite Nth by lia; field; lra|]. split.
  - intros i r Hi Ir. rewrite !Nth by lia. rewrite plus_INR. replace (INR 1) with 1 by reflexivity.
    replace ((INR i + 1) * (total / INR (length x - 1)) - INR i * (total / INR (length x - 1))) with (total / INR (length x - 1)) by ring.
    split; [apply Rdiv_lt_0_compat; lra|].
    assert (W : mn <= q_width (h r)) by now apply Mw, Wm.
    apply Rlt_le_trans with (mn / (a_feature_steps a - 2)).
    + apply Rmult_lt_reg_r with (INR (length x - 1)); [assumption|].
      apply Rmult_lt_reg_r with (a_feature_steps a - 2); [lra|].
      replace (total / INR (length x - 1) * INR (length x - 1) * (a_feature_steps a - 2)) with (total * (a_feature_steps a - 2)) by (field; lra).
      replace (mn / (a_feature_steps a - 2) * INR (length x - 1) * (a_feature_steps a - 2)) with (mn * INR (length x - 1)) by (field; lra).
      rewrite minus_INR by lia. replace (INR 1) with 1 by reflexivity. nra.
    + unfold Rdiv. apply Rmult_le_compat_r; [apply Rlt_le, Rinv_0_lt_compat; lra|assumption].
  - destruct (Z.max_spec (Rtrunc (a_feature_steps a / mn * total)) (a_min_step a)) as [[_ E]|[_ E]].
    + left. lia.
    + right. destruct (Wi _ Im) as (r & Er & Ir). exists r. split; [assumption|]. rewrite In', Er.
      rewrite <- Hn. rewrite E. apply Rmult_le_reg_r with (/ mn); [now apply Rinv_0_lt_compat|].
      replace (IZR (Rtrunc (a_feature_steps a / mn * total)) * mn * / mn) with (IZR (Rtrunc (a_feature_steps a / mn * total))) by (field; lra).
      replace (a_feature_steps a * total * / mn) with (a_feature_steps a / mn * total) by (field; lra). assumption.
Qed.
Print Assumptions C123_mesh.

(** Layers 1 and 2 thick with 20 steps per layer: 60 points, unless the smallest number is larger. *)
Definition ex_fine (mode : string) : pot_args :=
  {| a_step := None; a_min_step := 4%Z; a_feature_steps := 20; a_blur := 0; a_blurmode := "even";
     a_qw := Some 1%nat; a_Efield := 0; a_mode := mode |}.
Example C123_mesh_example kp8 : exists x ps,
  structure_to_potentials kp8 ex_heap ex_struct (Some ex_sub) (ex_fine "relaxed") = Ok (x, ps) /\ length x = 60%nat /\
  a_step (ex_fine "relaxed") = None /\ 2 < a_feature_steps (ex_fine "relaxed") /\
  (forall r, In r (layers ex_struct) -> 0 < q_width (ex_heap r)).
Proof.
  assert (W : sumR (map (fun r => q_width (ex_heap r)) (layers ex_struct)) = 3) by (unfold sumR; simpl; lra).
  assert (N : mesh_size (map (fun r => q_width (ex_heap r)) (layers ex_struct)) None 4 20 = Ok 60%Z).
  { unfold mesh_size. rewrite W. cbn [map layers ex_struct q_width ex_heap min_list].
    replace (Rmin 1 2) with 1 by (unfold Rmin; destruct (Rle_dec 1 2); lra).
    destruct (Req_EM_T 1 0); [lra|]. replace (20 / 1 * 3) with (IZR 60) by lra.
    unfold Rtrunc. destruct (Rle_dec 0 (IZR 60)); [|lra].
    replace (up (IZR 60)) with 61%Z by (apply tech_up; lra). reflexivity. }
  unfold structure_to_potentials. simpl a_mode. cbn [a_step a_min_step a_feature_steps ex_fine]. rewrite N. cbn [bindR].
  change (mode_of "relaxed") with (Some Relaxed). cbv iota beta. change (60 <? 0)%Z with false. cbv iota. rewrite W.
  cbn [layers ex_struct fill].
  assert (L : forall r b, exists p, layer_point kp8 (ex_heap r) (Some ex_sub) Relaxed b = Ok p) by (intros r b; eexists; reflexivity).
  destruct (L 0%nat (match a_qw (ex_fine "relaxed") with Some r' => Nat.eqb 0 r' | None => false end)) as (p0 & E0).
  destruct (L 1%nat (match a_qw (ex_fine "relaxed") with Some r' => Nat.eqb 1 r' | None => false end)) as (p1 & E1).
  rewrite E0. cbn [bindR]. rewrite E1. cbn [bindR]. unfold blurred. cbn [a_blur ex_fine].
  destruct (Req_EM_T 0 0) as [_|X]; [|lra]. cbn [bindR]. do 2 eexists. split; [reflexivity|].
  split; [rewrite linspace_length; reflexivity|]. split; [reflexivity|]. split; [lra|].
  intros r _. simpl. destruct r; lra.
Qed.

(** Properties of the one-dimensional Schroedinger solvers. *)
From Coq Require Import Reals ZArith Lra Lia String List Bool Permutation Sorted Psatz.
From Coquelicot Require Import Coquelicot.
From Coq Require Import List.
From Verif Require Import Common PhysConst InterpModel InterpProps NpModel LinAlg SchrodModel.
Import ListNotations.
Open Scope R_scope.
Open Scope list_scope.

(** * The matrix *)

Lemma at_map_seq (f : nat -> R) n i : (i < n)%nat -> at_ (map f (seq 0 n)) i = f i.
Proof.
  intro H. rewrite (nth_indep _ 0 (f O)) by (rewrite map_length, seq_length; exact H).
  rewrite map_nth, seq_nth by exact H. reflexivity.
Qed.
Lemma at_map_opp l i : at_ (map Ropp l) i = - at_ l i.
Proof. rewrite <- (map_nth Ropp). f_equal. lra. Qed.

(** Three-diagonal matrices: lower entry [L j] in column j, row j+1; upper [U j] in
    column j, row j-1. *)
Definition tri (L D U : nat -> R) (i j : nat) : R :=
  (if Nat.eqb i (S j) then L j else 0) + ((if Nat.eqb i j then D j else 0) + (if Nat.eqb j (S i) then U j else 0)).

Lemma tri_row n L D U x i : (i < n)%nat ->
  rsum n (fun j => tri L D U i j * x j) =
  D i * x i + (if Nat.eqb i 0 then 0 else L (i - 1)%nat * x (i - 1)%nat) +
  (if Nat.eqb (S i) n then 0 else U (S i) * x (S i)).
Proof.
  intro Hi.
  rewrite (rsum_ext n _ (fun j => (if Nat.eqb j i then D j * x j else 0) +
     ((if Nat.eqb i 0 then 0 else if Nat.eqb j (i - 1) then L j * x j else 0) +
      (if Nat.eqb j (S i) then U j * x j else 0)))).
  2:{ intros j Hj. unfold tri.
      destruct (Nat.eqb_spec i (S j)), (Nat.eqb_spec i j), (Nat.eqb_spec j (S i)), (Nat.eqb_spec j i),
        (Nat.eqb_spec i 0), (Nat.eqb_spec j (i - 1)); try lia; ring. }
  rewrite !rsum_plus, !rsum_ind.
  destruct (Nat.ltb_spec i n); [|lia].
  destruct (Nat.eqb_spec i 0).
  - rewrite (rsum_zero n (fun _ => 0)) by auto.
    destruct (Nat.ltb_spec (S i) n), (Nat.eqb_spec (S i) n); try lia; ring.
  - rewrite rsum_ind. destruct (Nat.ltb_spec (i - 1) n); [|lia].
    destruct (Nat.ltb_spec (S i) n), (Nat.eqb_spec (S i) n); try lia; ring.
Qed.

(** The kinetic weights: c_j = hbar^2 / (4 dz_j^2) and w_j = 1/m_j + 1/m_{j+1}. *)
Definition kin (z : list R) (j : nat) : R := hbar ^ 2 / (4 * grad z j ^ 2).
Definition wgt (m : list R) (j : nat) : R := 1 / at_ m j + 1 / at_ m (S j).
Definition wsum (m : list R) (j : nat) : R :=
  (if Nat.eqb j 0 then 2 / at_ m 0 else wgt m (j - 1)) +
  (if Nat.eqb (S j) (length m) then 2 / at_ m j else wgt m j).

Lemma ham_tri V z m i j : length m = length V -> (i < length V)%nat -> (j < length V)%nat ->
  hamiltonian V z m false i j =
  tri (fun j => - (kin z j * wgt m j)) (fun j => kin z j * wsum m j + at_ V j)
      (fun j => - (kin z j * wgt m (j - 1))) i j.
Proof.
  intros Hm Hi Hj. unfold hamiltonian, dia, diagonals.
  destruct (Nat.ltb_spec i (length V)); [|lia]. destruct (Nat.ltb_spec j (length V)); [|lia].
  cbn [andb fold_right fst snd]. rewrite !at_map_opp. unfold lower, upper, axis. rewrite !at_map_seq by auto.
  fold (kin z j). unfold tri.
  assert (M2 : forall x, x <> 0 -> 1 / x + 1 / x = 2 / x) by (intros; field; auto).
  destruct (Z.eqb_spec (Z.of_nat j - Z.of_nat i) (-1)), (Nat.eqb_spec i (S j)); try lia;
  destruct (Z.eqb_spec (Z.of_nat j - Z.of_nat i) 0), (Nat.eqb_spec i j); try lia;
  destruct (Z.eqb_spec (Z.of_nat j - Z.of_nat i) 1), (Nat.eqb_spec j (S i)); try lia; try ring.
  - unfold mass_b, mass_c, wgt. destruct (Nat.eqb_spec j (length m - 1)); [lia|].
    rewrite Nat.add_1_r. ring.
  - unfold mass_a, mass_b, mass_c, wsum, wgt. subst j.
    destruct (Nat.eqb_spec i 0) as [E0|N0], (Nat.eqb_spec i (length m - 1)), (Nat.eqb_spec (S i) (length m)); try lia;
      rewrite ?Nat.add_1_r; try (replace (S (i - 1)) with i by lia); try rewrite E0; simpl (0 - 1)%nat;
      unfold Rdiv; ring.
  - unfold mass_a, mass_b, wgt. subst j. simpl (S i - 1)%nat. rewrite Nat.sub_0_r. ring.
Qed.

(** Sums with an open end. *)
Lemma rsum_head_zero n f : rsum (S n) (fun i => if Nat.eqb i 0 then 0 else f (i - 1)%nat) = rsum n f.
Proof.
  rewrite rsum_shift. simpl Nat.eqb. cbv iota. rewrite Rplus_0_l. apply rsum_ext. intros i Hi.
  simpl. rewrite Nat.sub_0_r. reflexivity.
Qed.
Lemma rsum_last_zero n f : rsum (S n) (fun i => if Nat.eqb (S i) (S n) then 0 else f i) = rsum n f.
Proof.
  cbn [rsum]. rewrite Nat.eqb_refl, Rplus_0_r. apply rsum_ext. intros i Hi.
  destruct (Nat.eqb_spec (S i) (S n)); [lia|reflexivity].
Qed.

(** The quadratic form, scaled by the kinetic weights. *)
Lemma form_identity n (g w c V x : nat -> R) (L D U : nat -> R) :
  (forall j, (j < n)%nat -> L j = - (c j * w j)) ->
  (forall j, (j < n)%nat -> U (S j) = - (c (S j) * w j)) ->
  (forall j, (j <= n)%nat -> D j = c j * ((if Nat.eqb j 0 then g O else w (j - 1)%nat) +
                                          (if Nat.eqb (S j) (S n) then g n else w j)) + V j) ->
  rsum (S n) (fun i => c i * (x i * rsum (S n) (fun j => tri L D U i j * x j))) =
  rsum (S n) (fun i => V i * (c i * (x i * x i))) +
  (g O * (c O * x O) ^ 2 + g n * (c n * x n) ^ 2 +
   rsum n (fun i => w i * (c i * x i - c (S i) * x (S i)) ^ 2)).
Proof.
  intros HL HU HD.
  set (y := fun i => c i * x i).
  rewrite (rsum_ext (S n) _ (fun i =>
    V i * (c i * (x i * x i)) +
    ((if Nat.eqb i 0 then g O else w (i - 1)%nat) * y i ^ 2 +
     ((if Nat.eqb (S i) (S n) then g n else w i) * y i ^ 2 +
      ((if Nat.eqb i 0 then 0 else - (w (i - 1)%nat * (y (i - 1)%nat * y (S (i - 1))))) +
       (if Nat.eqb (S i) (S n) then 0 else - (w i * (y i * y (S i))))))))).
  2:{ intros i Hi. rewrite tri_row by exact Hi. rewrite HD by lia.
      destruct (Nat.eqb_spec i 0) as [E0|E0]; [|rewrite HL by lia; replace (S (i - 1)) with i by lia];
      (destruct (Nat.eqb_spec (S i) (S n)); [|rewrite HU by lia]); unfold y; ring. }
  rewrite !rsum_plus.
  rewrite (rsum_head_zero n (fun i => - (w i * (y i * y (S i))))).
  rewrite (rsum_last_zero n (fun i => - (w i * (y i * y (S i))))).
  assert (A : rsum (S n) (fun i => (if Nat.eqb i 0 then g O else w (i - 1)%nat) * y i ^ 2) =
              g O * y O ^ 2 + rsum n (fun i => w i * y (S i) ^ 2)).
  { rewrite rsum_shift. simpl Nat.eqb. cbv iota. f_equal. apply rsum_ext. intros i Hi.
    replace (S i - 1)%nat with i by lia. reflexivity. }
  assert (B : rsum (S n) (fun i => (if Nat.eqb (S i) (S n) then g n else w i) * y i ^ 2) =
              rsum n (fun i => w i * y i ^ 2) + g n * y n ^ 2).
  { cbn [rsum]. rewrite Nat.eqb_refl. f_equal. apply rsum_ext. intros i Hi.
    destruct (Nat.eqb_spec (S i) (S n)); [lia|reflexivity]. }
  rewrite A, B.
  rewrite (rsum_ext n (fun i => w i * (c i * x i - c (S i) * x (S i)) ^ 2)
     (fun i => w i * y (S i) ^ 2 + (w i * y i ^ 2 + (- (w i * (y i * y (S i))) + - (w i * (y i * y (S i))))))).
  2:{ intros i Hi. fold (y i) (y (S i)). ring. }
  rewrite !rsum_plus. change (c O * x O) with (y O). change (c n * x n) with (y n). ring.
Qed.

Lemma list_min_le l v : In v l -> list_min l <= v.
Proof.
  destruct l as [|a l]; [contradiction|]. cbn [list_min].
  assert (H : forall l a, fold_left Rmin l a <= a /\ forall v, In v l -> fold_left Rmin l a <= v).
  { clear. induction l as [|b l IH]; intro a; simpl; [split; [lra|contradiction]|].
    destruct (IH (Rmin a b)) as [I1 I2]. pose proof (Rmin_l a b). pose proof (Rmin_r a b).
    split; [lra|]. intros v [->|Hv]; [lra|auto]. }
  intros [->|Hv]; [apply (proj1 (H l v))|apply (proj2 (H l a)); exact Hv].
Qed.
Lemma list_max_ge l v : In v l -> v <= list_max l.
Proof.
  destruct l as [|a l]; [contradiction|]. cbn [list_max].
  assert (H : forall l a, a <= fold_left Rmax l a /\ forall v, In v l -> v <= fold_left Rmax l a).
  { clear. induction l as [|b l IH]; intro a; simpl; [split; [lra|contradiction]|].
    destruct (IH (Rmax a b)) as [I1 I2]. pose proof (Rmax_l a b). pose proof (Rmax_r a b).
    split; [lra|]. intros v [->|Hv]; [lra|auto]. }
  intros [->|Hv]; [apply (proj1 (H l v))|apply (proj2 (H l a)); exact Hv].
Qed.

(** A mesh whose points increase; positive masses. *)
Definition mesh_ok (V z m : list R) : Prop :=
  (2 <= length V)%nat /\ length z = length V /\ length m = length V /\
  (forall i, (S i < length z)%nat -> at_ z i < at_ z (S i)) /\ (forall v, In v m -> 0 < v).

Lemma grad_pos V z m i : mesh_ok V z m -> (i < length V)%nat -> 0 < grad z i.
Proof.
  intros (H2 & Hz & _ & Hi & _) L. unfold grad.
  destruct (Nat.eqb_spec i 0) as [->|N0]; [specialize (Hi 0%nat ltac:(lia)); lra|].
  destruct (Nat.eqb_spec i (length z - 1)).
  - specialize (Hi (i - 1)%nat ltac:(lia)). replace (S (i - 1)) with i in Hi by lia. lra.
  - pose proof (Hi (i - 1)%nat ltac:(lia)) as A. replace (S (i - 1)) with i in A by lia.
    pose proof (Hi i ltac:(lia)) as B. rewrite Nat.add_1_r. lra.
Qed.
Lemma kin_pos V z m i : mesh_ok V z m -> (i < length V)%nat -> 0 < kin z i.
Proof.
  intros H L. pose proof (grad_pos V z m i H L). pose proof hbar_pos. unfold kin.
  apply Rdiv_lt_0_compat; [apply pow_lt; assumption|]. apply Rmult_lt_0_compat; [lra|apply pow_lt; assumption].
Qed.
Lemma mass_pos V z m i : mesh_ok V z m -> (i < length V)%nat -> 0 < 1 / at_ m i.
Proof.
  intros (H2 & Hz & Hm & Hi & Hp) L. apply Rdiv_lt_0_compat; [lra|]. apply Hp, nth_In. lia.
Qed.
Lemma wgt_pos V z m i : mesh_ok V z m -> (S i < length V)%nat -> 0 < wgt m i.
Proof.
  intros H L. unfold wgt. pose proof (mass_pos V z m i H ltac:(lia)). pose proof (mass_pos V z m (S i) H L). lra.
Qed.

(** * C56 *)

(** C56: scaled by the (positive) kinetic weights, the matrix is symmetric; on a uniform
    mesh the matrix itself is. *)
Lemma ham_weighted V z m : mesh_ok V z m -> forall i j, (i < length V)%nat -> (j < length V)%nat ->
  kin z i * hamiltonian V z m false i j = kin z j * hamiltonian V z m false j i.
Proof.
  intros (H2 & Hz & Hm & _) i j Hi Hj. rewrite !ham_tri by assumption. unfold tri.
  destruct (Nat.eqb_spec i (S j)), (Nat.eqb_spec i j), (Nat.eqb_spec j (S i)), (Nat.eqb_spec j i); try lia; subst; try ring.
  - replace (S j - 1)%nat with j by lia. ring.
  - replace (S i - 1)%nat with i by lia. ring.
Qed.

Definition uniform (z : list R) (h : R) : Prop := forall i, (S i < length z)%nat -> at_ z (S i) - at_ z i = h.
Lemma uniform_grad z h i : uniform z h -> (2 <= length z)%nat -> (i < length z)%nat -> grad z i = h.
Proof.
  intros Hu H2 Hi. unfold grad.
  destruct (Nat.eqb_spec i 0) as [->|N0]; [apply Hu; lia|].
  destruct (Nat.eqb_spec i (length z - 1)).
  - specialize (Hu (i - 1)%nat ltac:(lia)). replace (S (i - 1)) with i in Hu by lia. exact Hu.
  - pose proof (Hu (i - 1)%nat ltac:(lia)) as A. replace (S (i - 1)) with i in A by lia.
    pose proof (Hu i ltac:(lia)) as B. rewrite Nat.add_1_r. lra.
Qed.

Theorem C56_symmetric_partial : forall V z m h, mesh_ok V z m -> uniform z h ->
  forall i j, (i < length V)%nat -> (j < length V)%nat ->
  hamiltonian V z m false i j = hamiltonian V z m false j i.
Proof.
  intros V z m h H Hu i j Hi Hj. pose proof (ham_weighted V z m H i j Hi Hj) as E.
  pose proof (kin_pos V z m i H Hi) as P.
  assert (kin z i = kin z j) as K.
  { destruct H as (H2 & Hz & _). unfold kin. rewrite !(uniform_grad z h) by (auto; lia). reflexivity. }
  rewrite <- K in E. apply Rmult_eq_reg_l in E; [exact E|lra].
Qed.

Lemma ham_form V z m x : mesh_ok V z m ->
  list_min V * rsum (length V) (fun i => kin z i * (x i * x i)) <=
  rsum (length V) (fun i => kin z i * (x i * rsum (length V) (fun j => hamiltonian V z m false i j * x j))).
Proof.
  intro H. pose proof H as (H2 & Hz & Hm & _).
  rewrite (rsum_ext (length V) (fun i => kin z i * (x i * rsum (length V) (fun j => hamiltonian V z m false i j * x j)))
    (fun i => kin z i * (x i * rsum (length V) (fun j => tri (fun j => - (kin z j * wgt m j))
       (fun j => kin z j * wsum m j + at_ V j) (fun j => - (kin z j * wgt m (j - 1))) i j * x j)))).
  2:{ intros i Hi. do 2 f_equal. apply rsum_ext. intros j Hj. rewrite ham_tri by auto. reflexivity. }
  destruct (length V) as [|n] eqn:E; [lia|].
  rewrite (form_identity n (fun j => 2 / at_ m j) (wgt m) (kin z) (fun j => at_ V j)).
  - rewrite <- rsum_scal.
    assert (A : rsum (S n) (fun i => list_min V * (kin z i * (x i * x i))) <=
                rsum (S n) (fun i => at_ V i * (kin z i * (x i * x i)))).
    { apply rsum_le. intros i Hi. apply Rmult_le_compat_r.
      - pose proof (kin_pos V z m i H ltac:(lia)). apply Rmult_le_pos; [lra|nra].
      - apply list_min_le, nth_In. lia. }
    assert (G : forall i, (i < S n)%nat -> 0 <= 2 / at_ m i).
    { intros i Hi. pose proof (mass_pos V z m i H ltac:(lia)). lra. }
    assert (B : 0 <= rsum n (fun i => wgt m i * (kin z i * x i - kin z (S i) * x (S i)) ^ 2)).
    { apply rsum_nonneg. intros i Hi. apply Rmult_le_pos; [|apply pow2_ge_0].
      left. apply (wgt_pos V z m i H). lia. }
    pose proof (Rmult_le_pos _ _ (G O ltac:(lia)) (pow2_ge_0 (kin z O * x O))).
    pose proof (Rmult_le_pos _ _ (G n ltac:(lia)) (pow2_ge_0 (kin z n * x n))). lra.
  - intros j Hj. reflexivity.
  - intros j Hj. replace (S j - 1)%nat with j by lia. reflexivity.
  - intros j Hj. unfold wsum. rewrite Hm. destruct (Nat.eqb_spec (S j) (S n)) as [E1|E1]; [|reflexivity].
    injection E1 as ->. reflexivity.
Qed.

(** C56: on every increasing mesh, uniform or not, the energy levels are real and not
    below the bottom of the potential. *)
Theorem C56_levels : forall V z m l v, mesh_ok V z m ->
  eigenpair (length V) (fun i j => RtoC (hamiltonian V z m false i j)) l v ->
  snd l = 0 /\ list_min V <= fst l.
Proof.
  intros V z m l v H He.
  assert (Hc : forall i, (i < length V)%nat -> 0 < kin z i) by (intros; eapply kin_pos; eauto).
  split.
  - exact (weighted_real _ _ (kin z) Hc (ham_weighted V z m H) l v He).
  - apply (weighted_bound _ _ (kin z) Hc (ham_weighted V z m H) l v He).
    intro x. apply ham_form. exact H.
Qed.

(** C56: on a mesh that is not uniform the matrix is not symmetric. *)
Theorem C56_nonuniform_refuted : exists V z m, mesh_ok V z m /\
  hamiltonian V z m false 0 1 <> hamiltonian V z m false 1 0.
Proof.
  exists [0; 0; 0], [0; 1; 3], [1; 1; 1]. split.
  - repeat split; simpl; try lia; try lra.
    + intros [|[|i]] Hi; simpl; try lra; lia.
    + intros v Hv. intuition; subst; lra.
  - rewrite !ham_tri by (simpl; lia). unfold tri, kin, wgt, grad; simpl. pose proof hbar_pos.
    assert (0 < hbar * (hbar * 1)) by nra. set (e := hbar * (hbar * 1)) in *. clearbody e. intro A.
    assert (B : e / 2 = e * 2 / 9) by lra. lra.
Qed.

(** * C92: the wave functions *)

(** The finite-difference form of -hbar^2/2 d/dz (1/m d psi/dz) + V psi = E psi at mesh
    point [j] of a uniform mesh of step [h]; the inverse mass between two points is the
    mean of the two inverse masses, the function vanishes outside and the mass continues. *)
Definition outside (n : nat) (f : nat -> R) (j : Z) : R :=
  if (Z.leb 0 j && Z.ltb j (Z.of_nat n))%bool then f (Z.to_nat j) else 0.
Definition inv_mass_mid (m : list R) (j : Z) : R :=   (* between j and j+1 *)
  let g := fun k => / at_ m (Z.to_nat (Z.min (Z.max k 0) (Z.of_nat (length m) - 1))) in (g j + g (j + 1)%Z) / 2.
Definition fd_equation (V m : list R) (h E : R) (f : nat -> R) (j : nat) : Prop :=
  let p := outside (length V) f in
  let jz := Z.of_nat j in
  - (hbar ^ 2 / 2) * (inv_mass_mid m jz * (p (jz + 1)%Z - p jz) - inv_mass_mid m (jz - 1) * (p jz - p (jz - 1)%Z)) / h ^ 2
  + at_ V j * f j = E * f j.

Lemma fd_row V m h E f j : length m = length V -> (j < length V)%nat -> h <> 0 ->
  fd_equation V m h E f j <->
  hbar ^ 2 / (4 * h ^ 2) * (wsum m j * f j - (if Nat.eqb j 0 then 0 else wgt m (j - 1) * f (j - 1)%nat)
     - (if Nat.eqb (S j) (length V) then 0 else wgt m j * f (S j))) + at_ V j * f j = E * f j.
Proof.
  intros Hm Hj Hh. unfold fd_equation.
  assert (P0 : outside (length V) f (Z.of_nat j) = f j).
  { unfold outside. destruct (Z.leb_spec 0 (Z.of_nat j)); [|lia].
    destruct (Z.ltb_spec (Z.of_nat j) (Z.of_nat (length V))); [|lia]. simpl. rewrite Nat2Z.id. reflexivity. }
  assert (P1 : outside (length V) f (Z.of_nat j + 1) = if Nat.eqb (S j) (length V) then 0 else f (S j)).
  { unfold outside. destruct (Z.leb_spec 0 (Z.of_nat j + 1)); [|lia].
    destruct (Z.ltb_spec (Z.of_nat j + 1) (Z.of_nat (length V))), (Nat.eqb_spec (S j) (length V)); try lia;
      simpl; try reflexivity. f_equal. lia. }
  assert (P2 : outside (length V) f (Z.of_nat j - 1) = if Nat.eqb j 0 then 0 else f (j - 1)%nat).
  { unfold outside. destruct (Nat.eqb_spec j 0).
    - destruct (Z.leb_spec 0 (Z.of_nat j - 1)); [lia|reflexivity].
    - destruct (Z.leb_spec 0 (Z.of_nat j - 1)); [|lia].
      destruct (Z.ltb_spec (Z.of_nat j - 1) (Z.of_nat (length V))); [|lia]. simpl. f_equal. lia. }
  assert (M1 : inv_mass_mid m (Z.of_nat j) = (if Nat.eqb (S j) (length V) then 2 / at_ m j else wgt m j) / 2).
  { unfold inv_mass_mid. rewrite Hm.
    replace (Z.to_nat (Z.min (Z.max (Z.of_nat j) 0) (Z.of_nat (length V) - 1))) with j by lia.
    destruct (Nat.eqb_spec (S j) (length V)).
    - replace (Z.to_nat (Z.min (Z.max (Z.of_nat j + 1) 0) (Z.of_nat (length V) - 1))) with j by lia. unfold Rdiv; ring.
    - replace (Z.to_nat (Z.min (Z.max (Z.of_nat j + 1) 0) (Z.of_nat (length V) - 1))) with (S j) by lia.
      unfold wgt, Rdiv; ring. }
  assert (M2 : inv_mass_mid m (Z.of_nat j - 1) = (if Nat.eqb j 0 then 2 / at_ m 0 else wgt m (j - 1)) / 2).
  { unfold inv_mass_mid. rewrite Hm. replace (Z.of_nat j - 1 + 1)%Z with (Z.of_nat j) by lia.
    replace (Z.to_nat (Z.min (Z.max (Z.of_nat j) 0) (Z.of_nat (length V) - 1))) with j by lia.
    destruct (Nat.eqb_spec j 0).
    - replace (Z.to_nat (Z.min (Z.max (Z.of_nat j - 1) 0) (Z.of_nat (length V) - 1))) with 0%nat by lia.
      subst j. unfold Rdiv; ring.
    - replace (Z.to_nat (Z.min (Z.max (Z.of_nat j - 1) 0) (Z.of_nat (length V) - 1))) with (j - 1)%nat by lia.
      unfold wgt, Rdiv. replace (S (j - 1)) with j by lia. ring. }
  cbv zeta. rewrite P0, P1, P2, M1, M2. unfold wsum. rewrite Hm.
  match goal with |- ?a + ?v = ?e <-> ?b + ?v' = ?e' => assert (K : a = b) end.
  { generalize (2 / at_ m j), (2 / at_ m 0). intros a b.
    destruct (Nat.eqb j 0), (Nat.eqb (S j) (length V)); field; exact Hh. }
  rewrite K. reflexivity.
Qed.

Lemma ham_apply V z m x i : length m = length V -> (i < length V)%nat ->
  rsum (length V) (fun j => hamiltonian V z m false i j * x j) =
  (kin z i * wsum m i + at_ V i) * x i
  - (if Nat.eqb i 0 then 0 else wgt m (i - 1) * (kin z (i - 1) * x (i - 1)%nat))
  - (if Nat.eqb (S i) (length V) then 0 else wgt m i * (kin z (S i) * x (S i))).
Proof.
  intros Hm Hi.
  rewrite (rsum_ext (length V) _ (fun j => tri (fun j => - (kin z j * wgt m j))
       (fun j => kin z j * wsum m j + at_ V j) (fun j => - (kin z j * wgt m (j - 1))) i j * x j)).
  2:{ intros j Hj. rewrite ham_tri by auto. reflexivity. }
  rewrite tri_row by exact Hi. replace (S i - 1)%nat with i by lia.
  destruct (Nat.eqb i 0), (Nat.eqb (S i) (length V)); ring.
Qed.

(** Real solutions of the matrix equation are those of the difference equation. *)
Lemma ham_solves V z m h E x : mesh_ok V z m -> uniform z h ->
  (forall i, (i < length V)%nat -> rsum (length V) (fun j => hamiltonian V z m false i j * x j) = E * x i) <->
  (forall i, (i < length V)%nat -> fd_equation V m h E x i).
Proof.
  intros H Hu. pose proof H as (H2 & Hz & Hm & _).
  assert (Hh : h <> 0).
  { rewrite <- (uniform_grad z h 0 Hu) by lia. pose proof (grad_pos V z m 0 H ltac:(lia)). lra. }
  assert (Hk : forall i, (i < length V)%nat -> kin z i = hbar ^ 2 / (4 * h ^ 2)).
  { intros i Hi. unfold kin. rewrite (uniform_grad z h) by (auto; lia). reflexivity. }
  assert (A : forall i, (i < length V)%nat ->
    rsum (length V) (fun j => hamiltonian V z m false i j * x j) =
    hbar ^ 2 / (4 * h ^ 2) * (wsum m i * x i - (if Nat.eqb i 0 then 0 else wgt m (i - 1) * x (i - 1)%nat)
     - (if Nat.eqb (S i) (length V) then 0 else wgt m i * x (S i))) + at_ V i * x i).
  { intros i Hi. rewrite ham_apply by auto. rewrite Hk by exact Hi.
    set (e := hbar ^ 2 / (4 * h ^ 2)) in *.
    destruct (Nat.eqb_spec i 0); [|rewrite (Hk (i - 1)%nat) by lia];
      (destruct (Nat.eqb_spec (S i) (length V)); [|rewrite (Hk (S i)) by lia]); ring. }
  split; intros S i Hi; specialize (S i Hi).
  - apply fd_row; auto. rewrite <- A by exact Hi. exact S.
  - rewrite A by exact Hi. apply fd_row in S; auto.
Qed.

Lemma np_csqrt_sq (w : C) : (np_csqrt w * np_csqrt w)%C = w.
Proof.
  destruct w as [x y]. unfold np_csqrt. cbn [fst snd]. set (md := Cmod (x, y)).
  assert (M2 : md * md = x * x + y * y).
  { unfold md, Cmod. rewrite sqrt_sqrt; cbn [fst snd]; [ring|nra]. }
  assert (M0 : 0 <= md) by apply Cmod_ge_0. clearbody md.
  assert (Hx : Rabs x <= md) by (apply Rabs_le; split; nra).
  assert (A : 0 <= (md + x) / 2) by (pose proof (Rabs_le_between x md) as [B _]; specialize (B Hx); lra).
  assert (B : 0 <= (md - x) / 2) by (pose proof (Rabs_le_between x md) as [B _]; specialize (B Hx); lra).
  pose proof (sqrt_sqrt _ A) as SA. pose proof (sqrt_sqrt _ B) as SB.
  assert (SAB : sqrt ((md + x) / 2) * sqrt ((md - x) / 2) = Rabs y / 2).
  { rewrite <- sqrt_mult by assumption.
    replace ((md + x) / 2 * ((md - x) / 2)) with (Rsqr (Rabs y / 2)).
    - apply sqrt_Rsqr. pose proof (Rabs_pos y). lra.
    - unfold Rsqr. replace (Rabs y / 2 * (Rabs y / 2)) with (Rabs y * Rabs y / 4) by field.
      rewrite <- Rabs_mult, Rabs_pos_eq by nra. nra. }
  set (u := sqrt ((md + x) / 2)) in *. set (v := sqrt ((md - x) / 2)) in *. clearbody u v.
  destruct (Rlt_dec y 0) as [L|L].
  - rewrite Rabs_left in SAB by lra. apply injective_projections; simpl; nra.
  - rewrite Rabs_pos_eq in SAB by lra. apply injective_projections; simpl; nra.
Qed.

(** Each eigenvector is a complex multiple of a real one. *)
Lemma eigenvector_real V z m l v : mesh_ok V z m ->
  eigenpair (length V) (fun i j => RtoC (hamiltonian V z m false i j)) l v ->
  v O <> 0%C /\ exists r : nat -> R, r O = 1 /\ forall i, (i < length V)%nat -> v i = (v O * RtoC (r i))%C.
Proof.
  intros H He. destruct (C56_levels V z m l v H He) as [Hl _].
  pose proof H as (H2 & Hz & Hm & _).
  assert (Hrow : forall i, (S i < length V)%nat ->
    (RtoC (- (kin z (S i) * wgt m i)) * v (S i))%C =
    ((l - RtoC (kin z i * wsum m i + at_ V i)) * v i +
      (if Nat.eqb i 0 then 0 else RtoC (wgt m (i - 1) * kin z (i - 1)) * v (i - 1)%nat))%C).
  { intros i Hi. destruct He as [_ E]. specialize (E i ltac:(lia)).
    assert (R1 : fst (csum (length V) (fun j => RtoC (hamiltonian V z m false i j) * v j)%C) =
                 rsum (length V) (fun j => hamiltonian V z m false i j * fst (v j))).
    { rewrite csum_fst. apply rsum_ext. intros j Hj. simpl. ring. }
    assert (R2 : snd (csum (length V) (fun j => RtoC (hamiltonian V z m false i j) * v j)%C) =
                 rsum (length V) (fun j => hamiltonian V z m false i j * snd (v j))).
    { rewrite csum_snd. apply rsum_ext. intros j Hj. simpl. ring. }
    rewrite ham_apply in R1, R2 by (auto; lia).
    pose proof (f_equal fst E) as E1. rewrite R1 in E1. pose proof (f_equal snd E) as E2. rewrite R2 in E2.
    unfold Cmult in E1, E2. cbn [fst snd] in E1, E2. clear R1 R2 E.
    revert E1 E2.
    destruct (Nat.eqb_spec (S i) (length V)); [lia|].
    destruct (Nat.eqb i 0); intros E1 E2; apply injective_projections; simpl; lra. }
  assert (Hd : forall i, (S i < length V)%nat -> - (kin z (S i) * wgt m i) <> 0).
  { intros i Hi. pose proof (kin_pos V z m (S i) H Hi). pose proof (wgt_pos V z m i H Hi). nra. }
  assert (Hr : forall i, (i < length V)%nat ->
     (exists r : R, v i = (v O * RtoC r)%C) /\ (exists r : R, (0 < i)%nat -> v (i - 1)%nat = (v O * RtoC r)%C)).
  { induction i as [|i IH]; intro Hi.
    - split; [exists 1; ring|exists 0; lia].
    - destruct (IH ltac:(lia)) as [[r E1] [r' E2]]. split.
      2:{ exists r. intros _. replace (S i - 1)%nat with i by lia. exact E1. }
      specialize (Hrow i Hi). specialize (Hd i Hi). set (d := - (kin z (S i) * wgt m i)) in *. clearbody d.
      assert (Hl' : l = RtoC (fst l)) by (apply injective_projections; simpl; auto).
      set (X := (fst l - (kin z i * wsum m i + at_ V i)) * r +
                (if Nat.eqb i 0 then 0 else wgt m (i - 1) * kin z (i - 1) * r')).
      exists (/ d * X).
      assert (Hd' : RtoC d <> 0%C) by (intro A; apply (f_equal fst) in A; simpl in A; auto).
      assert (K : (RtoC d * v (S i))%C = (v O * RtoC X)%C).
      { rewrite Hrow, E1. rewrite Hl' at 1. unfold X.
        destruct (Nat.eqb_spec i 0); [apply injective_projections; simpl; ring|].
        rewrite (E2 ltac:(lia)). apply injective_projections; simpl; ring. }
      rewrite (RtoC_mult (/ d) X), (RtoC_inv d) by exact Hd.
      transitivity (/ RtoC d * (RtoC d * v (S i)))%C; [field; exact Hd'|]. rewrite K. field. exact Hd'. }
  assert (H0 : v O <> 0%C).
  { intro Z. destruct He as [[k [Hk Hv]] _]. apply Hv. destruct (Hr k Hk) as [[r E] _]. rewrite E, Z. ring. }
  split; [exact H0|]. exists (fun i => fst (v i / v O)%C). split.
  - unfold Cdiv. rewrite Cinv_r by exact H0. reflexivity.
  - intros i Hi. destruct (Hr i Hi) as [[r E] _]. rewrite E.
    replace ((v O * RtoC r) / v O)%C with (RtoC r) by (field; exact H0). reflexivity.
Qed.

(** The function a list of values stands for. *)
Notation vec p := (fun j : nat => nth j p (RtoC 0)).

Lemma nondecreasing_step l : (forall i, (S i < length l)%nat -> at_ l i < at_ l (S i)) -> nondecreasing l.
Proof.
  intros H i j [Hij Hj]. induction Hij as [|j Hij IH]; [lra|].
  specialize (IH ltac:(lia)). specialize (H j ltac:(lia)). lra.
Qed.
Lemma np_trapz_pos : forall y x, length y = length x -> (2 <= length x)%nat ->
  (forall v, In v y -> 0 <= v) -> 0 < at_ y 0 ->
  (forall i, (S i < length x)%nat -> at_ x i < at_ x (S i)) -> 0 < np_trapz y x.
Proof.
  intros [|y0 [|y1 y]] [|x0 [|x1 x]] Hl H2 Hy H0 Hx; simpl in Hl, H2; try lia; try discriminate.
  rewrite np_trapz_cons. pose proof (Hx 0%nat ltac:(simpl; lia)) as A. simpl in A, H0.
  assert (B : 0 <= y1) by (apply Hy; right; left; reflexivity).
  assert (D : 0 <= np_trapz (y1 :: y) (x1 :: x)).
  { apply np_trapz_nonneg; [simpl; lia|intros v Hv; apply Hy; right; exact Hv|].
    apply nondecreasing_step. intros i Hi. apply (Hx (S i)). simpl in *. lia. }
  assert (0 < (x1 - x0) * (y0 + y1)) by (apply Rmult_lt_0_compat; lra). lra.
Qed.

Lemma map_vec (r : nat -> R) (a : C) (p : list C) :
  (forall i, (i < length p)%nat -> nth i p (RtoC 0) = (a * RtoC (r i))%C) ->
  p = map (fun i => (a * RtoC (r i))%C) (seq 0 (length p)).
Proof.
  intro H. apply (nth_ext _ _ (RtoC 0) (a * RtoC (r O))%C).
  - rewrite map_length, seq_length. reflexivity.
  - intros i Hi. rewrite (map_nth (fun i => (a * RtoC (r i))%C) (seq 0 (length p)) O), seq_nth by exact Hi.
    simpl. apply H. exact Hi.
Qed.

(** The vector of an eigenpair becomes a real, normalised eigenvector. *)
Lemma normalise_spec V z m l p : mesh_ok V z m -> length p = length V ->
  eigenpair (length V) (fun i j => RtoC (hamiltonian V z m false i j)) l (vec p) ->
  let psi := normalise p z in
  length psi = length V /\
  np_trapz (map (fun a => a * a) psi) z = 1 /\
  (forall i, (i < length V)%nat ->
     rsum (length V) (fun j => hamiltonian V z m false i j * at_ psi j) = fst l * at_ psi i).
Proof.
  intros H Hp He. destruct (eigenvector_real V z m l _ H He) as [H0 [r [R0 Hr]]].
  destruct (C56_levels V z m l _ H He) as [Hl _].
  pose proof H as (H2 & Hz & Hm & Hi & _).
  set (a := nth 0 p (RtoC 0)) in *.
  rewrite <- Hp in Hr. apply map_vec in Hr. rewrite Hp in Hr.
  set (n := length V) in *.
  set (S := np_trapz (map (fun i => r i * r i) (seq 0 n)) z).
  assert (HS : 0 < S).
  { apply np_trapz_pos.
    - rewrite map_length, seq_length. lia.
    - lia.
    - intros v Hv. apply in_map_iff in Hv. destruct Hv as (i & <- & _). nra.
    - rewrite at_map_seq by lia. rewrite R0. lra.
    - exact Hi. }
  assert (HT : ctrapz (map (fun a => a * a)%C p) z = (a * a * RtoC S)%C).
  { rewrite Hr, map_map. unfold ctrapz. rewrite !map_map.
    transitivity (np_trapz (map (Rmult (fst (a * a)%C)) (map (fun i => r i * r i) (seq 0 n))) z,
                  np_trapz (map (Rmult (snd (a * a)%C)) (map (fun i => r i * r i) (seq 0 n))) z).
    - rewrite !map_map. f_equal; f_equal; apply map_ext; intro i; simpl; ring.
    - rewrite !np_trapz_scale. fold S. apply injective_projections; simpl; ring. }
  set (w := np_csqrt (a * a * RtoC S)%C).
  assert (Hw : (w * w)%C = (a * a * RtoC S)%C) by apply np_csqrt_sq.
  assert (HSc : RtoC S <> 0%C) by (intro A; apply (f_equal fst) in A; simpl in A; lra).
  assert (Hw0 : w <> 0%C).
  { intro A. rewrite A in Hw. assert (B : (a * a * RtoC S)%C = 0%C) by (rewrite <- Hw; ring).
    revert B. repeat apply Cmult_neq_0; assumption. }
  set (k := (a / w)%C).
  assert (Hk : (k * k * RtoC S)%C = RtoC 1).
  { unfold k. transitivity ((a * a * RtoC S) / (w * w))%C; [field; exact Hw0|]. rewrite Hw.
    field. split; [exact HSc|exact H0]. }
  assert (Kr : snd k = 0 /\ fst k * fst k * S = 1).
  { clear - HS Hk. clearbody k S. pose proof (f_equal fst Hk) as K1. pose proof (f_equal snd Hk) as K2.
    destruct k as [kx ky]. simpl in *.
    assert (Z : kx * ky = 0).
    { apply (Rmult_eq_reg_r (2 * S)); lra. } apply Rmult_integral in Z. destruct Z as [Z|Z]; [|split; [exact Z|nra]].
    exfalso. subst kx. assert (0 <= ky * ky * S) by (apply Rmult_le_pos; [nra|lra]). nra. }
  destruct Kr as [Ks Kf].
  assert (HN : normalise p z = map (fun i => fst k * r i) (seq 0 n)).
  { unfold normalise. rewrite HT. fold w. rewrite Hr, map_map. apply map_ext. intro i.
    replace ((a * RtoC (r i)) / w)%C with (k * RtoC (r i))%C by (unfold k; field; exact Hw0).
    clear - Ks. clearbody k. destruct k as [kx ky]. simpl in *. rewrite Ks. ring. }
  clearbody k. cbv zeta. rewrite HN. split; [rewrite map_length, seq_length; reflexivity|]. split.
  - rewrite map_map.
    transitivity (np_trapz (map (Rmult (fst k * fst k)) (map (fun i => r i * r i) (seq 0 n))) z).
    + f_equal. rewrite map_map. apply map_ext. intro i. ring.
    + rewrite np_trapz_scale. fold S. exact Kf.
  - intros i Hin. rewrite at_map_seq by exact Hin.
    rewrite (rsum_ext n _ (fun j => hamiltonian V z m false i j * (fst k * r j))).
    2:{ intros j Hj. rewrite at_map_seq by exact Hj. reflexivity. }
    destruct He as [_ E]. specialize (E i Hin).
    assert (Hv : forall j, (j < n)%nat -> nth j p (RtoC 0) = (a * RtoC (r j))%C).
    { intros j Hj. rewrite Hr. rewrite (nth_indep _ (RtoC 0) (a * RtoC (r O))%C) by (rewrite map_length, seq_length; exact Hj).
      rewrite (map_nth (fun i => (a * RtoC (r i))%C) (seq 0 n) O), seq_nth by exact Hj. reflexivity. }
    rewrite (csum_ext n _ (fun j => a * RtoC (hamiltonian V z m false i j * r j))%C) in E.
    2:{ intros j Hj. rewrite Hv by exact Hj. apply injective_projections; simpl; ring. }
    rewrite csum_scal, csum_R, Hv in E by exact Hin.
    assert (E' : RtoC (rsum n (fun j => hamiltonian V z m false i j * r j)) = RtoC (fst l * r i)).
    { apply (f_equal (fun x => (/ a * x)%C)) in E.
      transitivity (/ a * (a * RtoC (rsum n (fun j => (hamiltonian V z m false i j * r j)%R))))%C;
        [field; exact H0|]. rewrite E.
      transitivity (l * RtoC (r i))%C; [field; exact H0|]. apply injective_projections; simpl; rewrite Hl; ring. }
    apply (f_equal fst) in E'. simpl in E'.
    rewrite (rsum_ext n _ (fun j => fst k * (hamiltonian V z m false i j * r j))) by (intros; ring).
    rewrite rsum_scal, E'. ring.
Qed.

Lemma sort_key_perm l : Permutation l (sort_key l).
Proof.
  induction l as [|a l IH]; simpl; [constructor|].
  transitivity (a :: sort_key l); [constructor; exact IH|].
  generalize (sort_key l). clear. induction l as [|b l IH]; simpl; [reflexivity|].
  destruct (Rle_dec (fst a) (fst b)); [reflexivity|].
  etransitivity; [apply perm_swap|]. constructor. exact IH.
Qed.
Lemma sort_key_sorted l : StronglySorted Rle (map fst (sort_key l)).
Proof.
  induction l as [|a l IH]; simpl; [constructor|].
  revert IH. generalize (sort_key l). clear. induction l as [|b l IH]; intro H; simpl.
  - repeat constructor.
  - apply StronglySorted_inv in H. destruct H as [H1 H2]. rewrite Forall_forall in H2.
    destruct (Rle_dec (fst a) (fst b)) as [L|L].
    + simpl. apply SSorted_cons; [apply SSorted_cons; [exact H1|rewrite Forall_forall; exact H2]|].
      rewrite Forall_forall. intros v [<-|Hv]; [exact L|]. specialize (H2 v Hv). lra.
    + simpl. apply SSorted_cons; [apply IH; exact H1|]. rewrite Forall_forall. intros v Hv.
      apply in_map_iff in Hv. destruct Hv as (w & <- & Hw).
      assert (P : Permutation (a :: l) (insert_key a l)).
      { clear. induction l as [|b l IH]; simpl; [reflexivity|].
        destruct (Rle_dec (fst a) (fst b)); [reflexivity|].
        etransitivity; [apply perm_swap|]. constructor. exact IH. }
      apply (Permutation_in _ (Permutation_sym P)) in Hw. destruct Hw as [<-|Hw]; [lra|].
      apply H2, in_map. exact Hw.
Qed.

(** What is asked of the eigenvalue solver. *)
Definition eigs_ok (eigs : solver) (H : matrix) (N k : nat) (s : R) : Prop :=
  Forall (fun p => length (snd p) = N /\ eigenpair N (fun i j => RtoC (H i j)) (fst p) (vec (snd p)))
         (eigs H N k s).

Lemma Forall2_pairs {A B D} (f : A -> B) (g : A -> D) (P : B -> D -> Prop) l :
  (forall a, In a l -> P (f a) (g a)) -> Forall2 P (map f l) (map g l).
Proof. induction l; simpl; constructor; auto. Qed.

Lemma clt_real e x : snd e = 0 -> clt e x = true <-> fst e < x.
Proof.
  intro H. unfold clt. destruct (Rlt_dec (fst e) x); [tauto|]. rewrite H.
  destruct (Req_EM_T (fst e) x), (Rlt_dec 0 0); split; try lra; discriminate.
Qed.

(** C92: every level returned is an eigenvalue below the limit and not below the bottom of
    the potential; its wave function is real, normalised and solves the matrix equation,
    which on a uniform mesh is the finite-difference Schroedinger equation; the levels come
    in order; and no level of the solver below the limit is lost. *)
Theorem C92_wavefunctions_partial : forall eigs V z m k quasi E Psi,
  mesh_ok V z m -> eigs_ok eigs (hamiltonian V z m false) (length V) k (list_min V) ->
  tridiag_euler eigs V z m false k quasi = Ok (E, Psi) ->
  StronglySorted Rle E /\
  Permutation (map RtoC E)
    (filter (fun e => if Rlt_dec (fst e) (quasi * q) then true else false)
            (map fst (eigs (hamiltonian V z m false) (length V) k (list_min V)))) /\
  Forall2 (fun e psi => list_min V <= e < quasi * q /\ length psi = length V /\
     np_trapz (map (fun a => a * a) psi) z = 1 /\
     (forall i, (i < length V)%nat ->
        rsum (length V) (fun j => hamiltonian V z m false i j * at_ psi j) = e * at_ psi i) /\
     (forall h, uniform z h -> forall i, (i < length V)%nat -> fd_equation V m h e (fun j => at_ psi j) i)) E Psi.
Proof.
  intros eigs V z m k quasi E Psi H Hs HE. unfold eigs_ok in Hs.
  pose proof H as (H2 & Hz & Hm & _). unfold tridiag_euler in HE.
  rewrite Hz, Hm, Nat.eqb_refl in HE. cbn [negb orb] in HE.
  destruct (Nat.ltb_spec (length V) 2); [lia|]. cbn [orb] in HE.
  replace (dup_offset (map fst (diagonals V z m false))) with false in HE by reflexivity.
  set (out := eigs (hamiltonian V z m false) (length V) k (list_min V)) in *. clearbody out.
  rewrite Forall_forall in Hs.
  set (kept := filter (fun p => clt (fst p) (quasi * q)) out) in *.
  set (L := map (fun p => (fst (fst p), normalise (snd p) z)) kept) in *.
  assert (HL : E = map fst (sort_key L) /\ Psi = map snd (sort_key L)).
  { unfold sort_simultaneous in HE. destruct L; [discriminate|]. injection HE as <- <-. split; reflexivity. }
  destruct HL as [-> ->]. clear HE.
  assert (Hreal : forall p, In p out -> snd (fst p) = 0 /\ list_min V <= fst (fst p)).
  { intros p Hp. destruct (Hs p Hp) as [_ He]. exact (C56_levels V z m _ _ H He). }
  split; [apply sort_key_sorted|]. split.
  - transitivity (map RtoC (map fst L)).
    { apply Permutation_map, Permutation_map. symmetry. apply sort_key_perm. }
    unfold L, kept. rewrite !map_map. cbn [fst].
    assert (K : forall o, (forall p, In p o -> In p out) ->
       map (fun x => RtoC (fst (fst x))) (filter (fun p => clt (fst p) (quasi * q)) o) =
       filter (fun e => if Rlt_dec (fst e) (quasi * q) then true else false) (map fst o)).
    { induction o as [|p o IH]; intro Ho; simpl; [reflexivity|].
      destruct (Hreal p (Ho p (or_introl eq_refl))) as [Hp _].
      pose proof (clt_real (fst p) (quasi * q) Hp) as HC.
      destruct (Rlt_dec (fst (fst p)) (quasi * q)) as [A|A].
      - rewrite (proj2 HC A). simpl. rewrite IH by (intros; apply Ho; right; auto). f_equal.
        apply injective_projections; simpl; auto.
      - destruct (clt (fst p) (quasi * q)); [exfalso; apply A, HC; reflexivity|].
        apply IH. intros; apply Ho; right; auto. }
    rewrite K by auto. reflexivity.
  - apply Forall2_pairs. intros a Ha.
    apply (Permutation_in _ (Permutation_sym (sort_key_perm L))) in Ha.
    unfold L in Ha. apply in_map_iff in Ha. destruct Ha as (p & <- & Hp). cbn [fst snd].
    unfold kept in Hp. apply filter_In in Hp. destruct Hp as [Hp Hlt].
    destruct (Hreal p Hp) as [R1 R2]. apply clt_real in Hlt; [|exact R1].
    destruct (Hs p Hp) as [Hl He].
    destruct (normalise_spec V z m _ _ H Hl He) as (N1 & N2 & N3).
    repeat split; auto. intros h Hu. apply (ham_solves V z m h _ _ H Hu). exact N3.
Qed.

(** C92: without a level below the limit, the call fails; the empty list that the callers
    test for is never returned. *)
Theorem C92_no_level : forall eigs V z m k quasi,
  mesh_ok V z m -> eigs_ok eigs (hamiltonian V z m false) (length V) k (list_min V) ->
  ((exists r, tridiag_euler eigs V z m false k quasi = Ok r) <->
   exists p, In p (eigs (hamiltonian V z m false) (length V) k (list_min V)) /\ fst (fst p) < quasi * q) /\
  (forall e, tridiag_euler eigs V z m false k quasi = Err e -> e = ValueError).
Proof.
  intros eigs V z m k quasi H Hs. unfold eigs_ok in Hs.
  pose proof H as (H2 & Hz & Hm & _). unfold tridiag_euler.
  rewrite Hz, Hm, Nat.eqb_refl. cbn [negb orb].
  destruct (Nat.ltb_spec (length V) 2); [lia|]. cbn [orb].
  replace (dup_offset (map fst (diagonals V z m false))) with false by reflexivity.
  set (out := eigs (hamiltonian V z m false) (length V) k (list_min V)) in *. clearbody out.
  rewrite Forall_forall in Hs.
  assert (Hreal : forall p, In p out -> snd (fst p) = 0).
  { intros p Hp. destruct (Hs p Hp) as [_ He]. exact (proj1 (C56_levels V z m _ _ H He)). }
  destruct (filter (fun p => clt (fst p) (quasi * q)) out) as [|p0 kept] eqn:EF.
  - simpl. split; [split|].
    + intros [r Hr]. discriminate.
    + intros (p & Hp & Hlt). exfalso. apply (clt_real (fst p) (quasi * q) (Hreal p Hp)) in Hlt.
      assert (HI : In p []) by (rewrite <- EF; apply filter_In; auto). exact HI.
    + intros e He. injection He as <-. reflexivity.
  - simpl. split; [split|].
    + intros _. exists p0. assert (HI : In p0 (filter (fun p => clt (fst p) (quasi * q)) out)) by (rewrite EF; left; auto).
      apply filter_In in HI. destruct HI as [HI Hlt]. split; [exact HI|]. apply clt_real in Hlt; auto.
    + intros _. eexists. reflexivity.
    + discriminate.
Qed.

(** C92: on an arbitrary mesh it is the wave function divided by the square of the local
    step that solves the difference equation with that step. *)
Theorem C92_local_equation : forall V z m E psi, mesh_ok V z m ->
  (forall i, (i < length V)%nat -> rsum (length V) (fun j => hamiltonian V z m false i j * at_ psi j) = E * at_ psi i) <->
  (forall i, (i < length V)%nat -> fd_equation V m (grad z i) E (fun j => at_ psi j / grad z j ^ 2) i).
Proof.
  intros V z m E psi H. pose proof H as (H2 & Hz & Hm & _).
  assert (A : forall i, (i < length V)%nat ->
    (rsum (length V) (fun j => hamiltonian V z m false i j * at_ psi j) = E * at_ psi i <->
     fd_equation V m (grad z i) E (fun j => at_ psi j / grad z j ^ 2) i)).
  { intros i Hi. pose proof (grad_pos V z m i H Hi) as G.
    assert (Gn : grad z i <> 0) by lra. rewrite fd_row by auto. rewrite ham_apply by auto.
    fold (kin z i). unfold kin.
    set (W := wsum m i). set (v := at_ V i). set (g := grad z i) in *. set (x := at_ psi i). set (e := hbar ^ 2).
    set (P1 := if Nat.eqb i 0 then 0 else wgt m (i - 1) * (e / (4 * grad z (i - 1) ^ 2) * at_ psi (i - 1))).
    set (P2 := if Nat.eqb (S i) (length V) then 0 else wgt m i * (e / (4 * grad z (S i) ^ 2) * at_ psi (S i))).
    assert (Q1 : e / (4 * g ^ 2) * (if Nat.eqb i 0 then 0 else wgt m (i - 1) * (at_ psi (i - 1) / grad z (i - 1) ^ 2)) = P1 / g ^ 2).
    { unfold P1. destruct (Nat.eqb_spec i 0); [field; auto|].
      pose proof (grad_pos V z m (i - 1) H ltac:(lia)). field. split; [lra|auto]. }
    assert (Q2 : e / (4 * g ^ 2) * (if Nat.eqb (S i) (length V) then 0 else wgt m i * (at_ psi (S i) / grad z (S i) ^ 2)) = P2 / g ^ 2).
    { unfold P2. destruct (Nat.eqb_spec (S i) (length V)); [field; auto|].
      pose proof (grad_pos V z m (S i) H ltac:(lia)). field. split; [lra|auto]. }
    assert (K : e / (4 * g ^ 2) * (W * (x / g ^ 2) -
        (if Nat.eqb i 0 then 0 else wgt m (i - 1) * (at_ psi (i - 1) / grad z (i - 1) ^ 2)) -
        (if Nat.eqb (S i) (length V) then 0 else wgt m i * (at_ psi (S i) / grad z (S i) ^ 2))) + v * (x / g ^ 2) =
        ((e / (4 * g ^ 2) * W + v) * x - P1 - P2) / g ^ 2).
    { rewrite !Rmult_minus_distr_l, Q1, Q2. field. auto. }
    rewrite K. split; intro T.
    - rewrite T. unfold Rdiv. ring.
    - apply (Rmult_eq_reg_r (/ g ^ 2)); [|apply Rinv_neq_0_compat, pow_nonzero; auto].
      etransitivity; [exact T|]. unfold Rdiv. ring. }
  split; intros S i Hi; apply A; auto.
Qed.

(** C92: so the wave functions themselves are wrong on a mesh that is not uniform. *)
Theorem C92_nonuniform_refuted : exists V z m E psi, mesh_ok V z m /\ at_ psi 0 <> 0 /\
  (forall i, (i < length V)%nat -> rsum (length V) (fun j => hamiltonian V z m false i j * at_ psi j) = E * at_ psi i) /\
  ~ fd_equation V m (grad z 0) E (fun j => at_ psi j) 0.
Proof.
  set (z := [0; 1; 3]). set (m := [1; 1; 1]).
  set (V := [2 * kin z 1 - 4 * kin z 0; 2 * kin z 0 + 2 * kin z 2 - 4 * kin z 1; 2 * kin z 1 - 4 * kin z 2]).
  assert (H : mesh_ok V z m).
  { repeat split; simpl; try lia.
    - intros [|[|i]] Hi; simpl; try lra; lia.
    - intros v Hv. intuition; subst; lra. }
  exists V, z, m, 0, [1; 1; 1]. split; [exact H|]. split; [simpl; lra|]. split.
  - intros i Hi. rewrite ham_apply by (auto; reflexivity).
    assert (Hi' : (i < 3)%nat) by exact Hi. clear Hi. clearbody z.
    destruct i as [|[|[|i]]]; [| | |lia]; unfold wsum, wgt, V, m; simpl; lra.
  - rewrite fd_row by (try reflexivity; try (simpl; lia); unfold grad; simpl; lra).
    change (hbar ^ 2 / (4 * grad z 0 ^ 2)) with (kin z 0).
    unfold wsum, wgt. simpl.
    assert (A : kin z 0 = hbar ^ 2 / 4) by (unfold kin, grad; simpl; field).
    assert (B : kin z 1 = hbar ^ 2 / 9) by (unfold kin, grad; simpl; field).
    rewrite A, B. pose proof (pow_lt hbar 2 hbar_pos). set (e := hbar ^ 2) in *. clearbody e. lra.
Qed.

(** A two-point mesh, with an eigenvector returned with an arbitrary complex phase. *)
Definition ex_V : list R := let k := kin [0; 1] 0 in [-1 - 2 * k; -1 - 2 * k].
Example C92_example :
  let eigs : solver := fun _ _ _ _ => [(RtoC (-1), [Ci; Ci])] in
  mesh_ok ex_V [0; 1] [1; 1] /\ uniform [0; 1] 1 /\
  eigs_ok eigs (hamiltonian ex_V [0; 1] [1; 1] false) (length ex_V) 1 (list_min ex_V) /\
  exists r, tridiag_euler eigs ex_V [0; 1] [1; 1] false 1 0 = Ok r.
Proof.
  cbv zeta.
  assert (H : mesh_ok ex_V [0; 1] [1; 1]).
  { repeat split; simpl; try lia.
    - intros [|i] Hi; simpl; [lra|lia].
    - intros v Hv. intuition; subst; lra. }
  assert (HE : eigs_ok (fun _ _ _ _ => [(RtoC (-1), [Ci; Ci])]) (hamiltonian ex_V [0; 1] [1; 1] false) (length ex_V) 1 (list_min ex_V)).
  { apply Forall_cons; [|apply Forall_nil]. split; [reflexivity|]. split.
    - exists 0%nat. split; [simpl; lia|]. simpl. intro A. apply (f_equal snd) in A. simpl in A. lra.
    - assert (A : forall i, (i < 2)%nat -> rsum 2 (fun j => hamiltonian ex_V [0; 1] [1; 1] false i j * 1) = -1).
      { intros i Hi. pose proof (ham_apply ex_V [0; 1] [1; 1] (fun _ => 1) i eq_refl Hi) as B.
        etransitivity; [exact B|]. unfold wsum, wgt.
        assert (K : kin [0; 1] 1 = kin [0; 1] 0) by (unfold kin, grad; simpl; f_equal; ring).
        destruct i as [|[|i]]; [| |lia]; unfold ex_V; simpl; rewrite ?K; lra. }
      intros i Hi. cbn [fst snd].
      transitivity (Ci * RtoC (rsum 2 (fun j => (hamiltonian ex_V [0; 1] [1; 1] false i j * 1)%R)))%C.
      + rewrite <- csum_R, <- csum_scal. apply csum_ext. intros j Hj.
        change (length ex_V) with 2%nat in Hj. destruct j as [|[|j]]; [| |lia]; simpl;
          apply injective_projections; simpl; ring.
      + rewrite A by exact Hi. change (length ex_V) with 2%nat in Hi. destruct i as [|[|i]]; [| |lia]; simpl;
          apply injective_projections; simpl; ring. }
  split; [exact H|]. split; [|split; [exact HE|]].
  - intros [|i] Hi; simpl in *; [lra|lia].
  - apply (proj1 (C92_no_level _ _ _ _ _ _ H HE)). exists (RtoC (-1), [Ci; Ci]).
    split; [left; reflexivity|]. simpl. lra.
Qed.

(** * The energies of [schroedinger_solve] *)

Lemma list_min_in l : l <> [] -> In (list_min l) l.
Proof.
  destruct l as [|a l]; [congruence|]. intros _. simpl.
  assert (G : forall l a, fold_left Rmin l a = a \/ In (fold_left Rmin l a) l).
  { clear. induction l as [|b l IH]; intro a; simpl; [auto|].
    destruct (IH (Rmin a b)) as [E|E]; [|auto].
    rewrite E. unfold Rmin. destruct (Rle_dec a b); auto. }
  destruct (G l a) as [E|E]; [left; symmetry; exact E|right; exact E].
Qed.
Lemma list_max_in l : l <> [] -> In (list_max l) l.
Proof.
  destruct l as [|a l]; [congruence|]. intros _. simpl.
  assert (G : forall l a, fold_left Rmax l a = a \/ In (fold_left Rmax l a) l).
  { clear. induction l as [|b l IH]; intro a; simpl; [auto|].
    destruct (IH (Rmax a b)) as [E|E]; [|auto].
    rewrite E. unfold Rmax. destruct (Rle_dec a b); auto. }
  destruct (G l a) as [E|E]; [left; symmetry; exact E|right; exact E].
Qed.

Lemma mesh_ok_map f V z m : mesh_ok V z m -> mesh_ok (map f V) z m.
Proof. unfold mesh_ok. rewrite map_length. tauto. Qed.

Lemma fd_shift V f m h e psi i s : length m = length V -> (i < length V)%nat -> h <> 0 ->
  (forall v, f v = v + s) ->
  fd_equation (map f V) m h e psi i <-> fd_equation V m h (e - s) psi i.
Proof.
  intros Hm Hi Hh Hf. rewrite !fd_row by (rewrite ?map_length; auto). rewrite map_length.
  rewrite (nth_indep (map f V) 0 (f 0)) by (rewrite map_length; auto). rewrite map_nth, Hf.
  split; intro E; lra.
Qed.

(** C56: the levels of an electron lie between the bottom of the potential and the limit,
    those of a hole between the limit and the top, and they are energies of the
    potential that was given, not of the shifted one. *)
Theorem C56_energies : forall eigs x V m k offset electron quasi E Psi,
  mesh_ok V x m ->
  (forall W, length W = length V -> eigs_ok eigs (hamiltonian W x m false) (length W) k (list_min W)) ->
  schroedinger_solve eigs x V m k false offset electron quasi = Ok (E, Psi) ->
  Forall2 (fun e psi =>
    (if electron : bool then list_min V <= e < list_max V + offset + quasi * q
     else list_min V - offset - quasi * q < e <= list_max V) /\
    length psi = length V /\ np_trapz (map (fun a => a * a) psi) x = 1 /\
    (forall h, uniform x h -> forall i, (i < length V)%nat ->
       if electron then fd_equation V m h e (fun j => at_ psi j) i
       else fd_equation (map Ropp V) m h (- e) (fun j => at_ psi j) i)) E Psi.
Proof.
  intros eigs x V m k offset electron quasi E Psi H Hs HE.
  pose proof H as (H2 & Hz & Hm & _).
  assert (HV : V <> []) by (intro A; rewrite A in H2; simpl in H2; lia).
  assert (Hh : forall h, uniform x h -> h <> 0).
  { intros h Hu. rewrite <- (uniform_grad x h 0 Hu) by lia. pose proof (grad_pos V x m 0 H ltac:(lia)). lra. }
  unfold schroedinger_solve in HE. destruct electron.
  - set (s := list_max V + offset) in *. set (f := fun v => v - s) in *.
    destruct (tridiag_euler eigs (map f V) x m false k quasi) as [[E1 P1]|er] eqn:ET; [|discriminate].
    simpl in HE. injection HE as <- <-.
    assert (Hs' : eigs_ok eigs (hamiltonian (map f V) x m false) (length (map f V)) k (list_min (map f V))).
    { apply Hs. apply map_length. }
    destruct (C92_wavefunctions_partial _ _ _ _ _ _ _ _ (mesh_ok_map f V x m H) Hs' ET) as (_ & _ & F).
    assert (Lm : list_min V - s <= list_min (map f V)).
    { assert (I : In (list_min (map f V)) (map f V)) by (apply list_min_in; destruct V; [congruence|discriminate]).
      apply in_map_iff in I. destruct I as (v & <- & Hv). unfold f. pose proof (list_min_le V v Hv). lra. }
    clear ET. induction F as [|e psi E1 P1 (F1 & F2 & F3 & _ & F5) _ IH]; simpl; constructor; auto.
    rewrite map_length in F2, F5. split; [unfold s in *; lra|]. repeat split; auto.
    + intros h Hu i Hi. specialize (F5 h Hu i Hi). apply (fd_shift V f m h e _ i (- s)) in F5; auto.
      replace (e + s) with (e - - s) by ring. exact F5.
  - set (s := list_min V - offset) in *. set (f := fun v => - v + s) in *.
    destruct (tridiag_euler eigs (map f V) x m false k quasi) as [[E1 P1]|er] eqn:ET; [|discriminate].
    simpl in HE. injection HE as <- <-.
    assert (Hs' : eigs_ok eigs (hamiltonian (map f V) x m false) (length (map f V)) k (list_min (map f V))).
    { apply Hs. apply map_length. }
    destruct (C92_wavefunctions_partial _ _ _ _ _ _ _ _ (mesh_ok_map f V x m H) Hs' ET) as (_ & _ & F).
    assert (Lm : s - list_max V <= list_min (map f V)).
    { assert (I : In (list_min (map f V)) (map f V)) by (apply list_min_in; destruct V; [congruence|discriminate]).
      apply in_map_iff in I. destruct I as (v & <- & Hv). unfold f. pose proof (list_max_ge V v Hv). lra. }
    clear ET. induction F as [|e psi E1 P1 (F1 & F2 & F3 & _ & F5) _ IH]; simpl; constructor; auto.
    rewrite map_length in F2, F5. change (f e) with (- e + s); split; [unfold s in *; lra|]. repeat split; auto.
    + intros h Hu i Hi. specialize (F5 h Hu i Hi).
      assert (M : map f V = map (fun w => w + s) (map Ropp V)) by (rewrite map_map; reflexivity).
      rewrite M in F5. apply (fd_shift (map Ropp V) _ m h e _ i s) in F5;
        [|rewrite map_length; auto|rewrite map_length; auto|auto|reflexivity].
      replace (- (- e + s)) with (e - s) by ring. exact F5.
Qed.

(** * Periodic boundaries *)

Lemma at_top_right n v j : at_ (repeat 0 n ++ [v]) j = if Nat.eqb j n then v else 0.
Proof.
  revert j. induction n as [|n IH]; intros [|j]; simpl; auto.
  destruct j; reflexivity.
Qed.
Lemma at_bottom_left n v j : at_ (v :: repeat 0 n) j = if Nat.eqb j 0 then v else 0.
Proof. destruct j; [reflexivity|]. simpl. revert j. induction n; intros [|j]; simpl; auto. Qed.

Lemma ham_periodic V z m i j : length m = length V -> (3 <= length V)%nat -> (i < length V)%nat -> (j < length V)%nat ->
  hamiltonian V z m true i j = hamiltonian V z m false i j +
    ((if (Nat.eqb i 0 && Nat.eqb j (length V - 1))%bool then - (kin z (length V - 1) * (2 / at_ m (length V - 1))) else 0) +
     (if (Nat.eqb j 0 && Nat.eqb i (length V - 1))%bool then - (kin z 0 * (2 / at_ m 0)) else 0)).
Proof.
  intros Hm H3 Hi Hj. unfold hamiltonian, dia.
  destruct (Nat.ltb_spec i (length V)); [|lia]. destruct (Nat.ltb_spec j (length V)); [|lia]. cbn [andb].
  unfold diagonals. cbn [app fold_right fst snd].
  rewrite at_top_right, at_bottom_left.
  assert (HL : at_ (lower V z m) (length V - 1) = kin z (length V - 1) * (2 / at_ m (length V - 1))).
  { unfold lower. rewrite at_map_seq by lia. fold (kin z (length V - 1)). unfold mass_b, mass_c. rewrite Hm, Nat.eqb_refl.
    unfold Rdiv. ring. }
  assert (HU : at_ (upper V z m) 0 = kin z 0 * (2 / at_ m 0)).
  { unfold upper. rewrite at_map_seq by lia. fold (kin z 0). unfold mass_a, mass_b. simpl (0 - 1)%nat.
    unfold Rdiv. ring. }
  rewrite HL, HU.
  destruct (Z.eqb_spec (Z.of_nat j - Z.of_nat i) (- Z.of_nat (length V) + 1)),
           (Z.eqb_spec (Z.of_nat j - Z.of_nat i) (Z.of_nat (length V) - 1)),
           (Nat.eqb_spec i 0), (Nat.eqb_spec j (length V - 1)), (Nat.eqb_spec j 0), (Nat.eqb_spec i (length V - 1));
    try lia; cbn [andb]; ring.
Qed.

(** C56: with the same mass at both ends, the same holds for periodic boundaries. *)
Theorem C56_periodic_partial : forall V z m l v, mesh_ok V z m -> (3 <= length V)%nat ->
  at_ m 0 = at_ m (length V - 1) ->
  eigenpair (length V) (fun i j => RtoC (hamiltonian V z m true i j)) l v ->
  snd l = 0 /\ list_min V <= fst l.
Proof.
  intros V z m l v H H3 Hend He.
  pose proof H as (H2 & Hz & Hm & _).
  assert (Hc : forall i, (i < length V)%nat -> 0 < kin z i) by (intros; eapply kin_pos; eauto).
  assert (Hs : forall i j, (i < length V)%nat -> (j < length V)%nat ->
     kin z i * hamiltonian V z m true i j = kin z j * hamiltonian V z m true j i).
  { intros i j Hi Hj. rewrite !ham_periodic by auto.
    pose proof (ham_weighted V z m H i j Hi Hj) as E.
    rewrite !Rmult_plus_distr_l, E.
    destruct (Nat.eqb_spec i 0), (Nat.eqb_spec j (length V - 1)), (Nat.eqb_spec j 0), (Nat.eqb_spec i (length V - 1));
      try lia; cbn [andb]; subst; rewrite ?Hend; ring. }
  split.
  - exact (weighted_real _ _ (kin z) Hc Hs l v He).
  - apply (weighted_bound _ _ (kin z) Hc Hs l v He). intro x.
    pose proof (fun y => ham_form V z m y H) as HF.
    destruct (length V) as [|n] eqn:EN; [lia|]. replace (S n - 1)%nat with n in * by lia.
    set (g := 2 / at_ m n) in *.
    assert (Hg : 0 < g) by (pose proof (mass_pos V z m n H ltac:(lia)); unfold g; lra).
    assert (Hn : n <> 0%nat) by lia.
    assert (Row : forall i, (i < S n)%nat -> rsum (S n) (fun j => hamiltonian V z m true i j * x j) =
       rsum (S n) (fun j => hamiltonian V z m false i j * x j) +
       ((if Nat.eqb i 0 then - (kin z n * g) * x n else 0) + (if Nat.eqb i n then - (kin z 0 * g) * x O else 0))).
    { intros i Hi.
      rewrite (rsum_ext (S n) _ (fun j => hamiltonian V z m false i j * x j +
         ((if Nat.eqb j n then (if Nat.eqb i 0 then - (kin z n * g) * x j else 0) else 0) +
          (if Nat.eqb j 0 then (if Nat.eqb i n then - (kin z 0 * g) * x j else 0) else 0)))).
      2:{ intros j Hj. rewrite ham_periodic by (rewrite ?EN; auto; lia). rewrite EN, Hend.
          replace (S n - 1)%nat with n by lia. fold g.
          destruct (Nat.eqb i 0), (Nat.eqb j n), (Nat.eqb j 0), (Nat.eqb i n); cbn [andb]; ring. }
      rewrite !rsum_plus, !rsum_ind. destruct (Nat.ltb_spec n (S n)); [|lia]. destruct (Nat.ltb_spec 0 (S n)); [|lia].
      reflexivity. }
    rewrite (rsum_ext (S n) (fun i => kin z i * (x i * rsum (S n) (fun j => hamiltonian V z m true i j * x j)))
      (fun i => kin z i * (x i * rsum (S n) (fun j => hamiltonian V z m false i j * x j)) +
        ((if Nat.eqb i 0 then - (g * ((kin z i * x i) * (kin z n * x n))) else 0) +
         (if Nat.eqb i n then - (g * ((kin z i * x i) * (kin z 0 * x O))) else 0)))).
    2:{ intros i Hi. rewrite Row by exact Hi. destruct (Nat.eqb i 0), (Nat.eqb i n); ring. }
    rewrite !rsum_plus, !rsum_ind. destruct (Nat.ltb_spec n (S n)); [|lia]. destruct (Nat.ltb_spec 0 (S n)); [|lia].
    (* the form of the open chain, with its end terms *)
    assert (Form : rsum (S n) (fun i => kin z i * (x i * rsum (S n) (fun j => hamiltonian V z m false i j * x j))) =
       rsum (S n) (fun i => at_ V i * (kin z i * (x i * x i))) +
       (2 / at_ m 0 * (kin z O * x O) ^ 2 + 2 / at_ m n * (kin z n * x n) ^ 2 +
        rsum n (fun i => wgt m i * (kin z i * x i - kin z (S i) * x (S i)) ^ 2))).
    { rewrite (rsum_ext (S n) _ (fun i => kin z i * (x i * rsum (S n) (fun j => tri (fun j => - (kin z j * wgt m j))
         (fun j => kin z j * wsum m j + at_ V j) (fun j => - (kin z j * wgt m (j - 1))) i j * x j)))).
      2:{ intros i Hi. do 2 f_equal. apply rsum_ext. intros j Hj. rewrite ham_tri by (rewrite ?EN; auto). reflexivity. }
      apply (form_identity n (fun j => 2 / at_ m j) (wgt m) (kin z) (fun j => at_ V j)).
      - intros j Hj. reflexivity.
      - intros j Hj. replace (S j - 1)%nat with j by lia. reflexivity.
      - intros j Hj. unfold wsum. rewrite Hm. destruct (Nat.eqb_spec (S j) (S n)) as [E1|E1]; [|reflexivity].
        injection E1 as ->. reflexivity. }
    rewrite Form, Hend. fold g.
    rewrite <- rsum_scal.
    assert (A : rsum (S n) (fun i => list_min V * (kin z i * (x i * x i))) <=
                rsum (S n) (fun i => at_ V i * (kin z i * (x i * x i)))).
    { apply rsum_le. intros i Hi. apply Rmult_le_compat_r.
      - pose proof (Hc i Hi). apply Rmult_le_pos; [lra|nra].
      - apply list_min_le, nth_In. lia. }
    assert (B : 0 <= rsum n (fun i => wgt m i * (kin z i * x i - kin z (S i) * x (S i)) ^ 2)).
    { apply rsum_nonneg. intros i Hi. apply Rmult_le_pos; [|apply pow2_ge_0].
      left. apply (wgt_pos V z m i H). lia. }
    pose proof (Rmult_le_pos g _ (Rlt_le _ _ Hg) (pow2_ge_0 (kin z O * x O - kin z n * x n))). nra.
Qed.

(** C56: with different masses at the two ends the periodic matrix is not symmetric, even
    on a uniform mesh. *)
Theorem C56_periodic_refuted : exists V z m, mesh_ok V z m /\ uniform z 1 /\
  hamiltonian V z m true 0 2 <> hamiltonian V z m true 2 0.
Proof.
  exists [0; 0; 0], [0; 1; 2], [1; 1; 2]. split; [|split].
  - repeat split; simpl; try lia; try lra.
    + intros [|[|i]] Hi; simpl; try lra; lia.
    + intros v Hv. intuition; subst; lra.
  - intros [|[|i]] Hi; simpl in *; try lra; lia.
  - rewrite !ham_periodic by (simpl; lia). rewrite !ham_tri by (simpl; lia). unfold tri, kin, wgt, grad; simpl.
    pose proof hbar_pos. assert (0 < hbar * (hbar * 1)) by nra.
    set (e := hbar * (hbar * 1)) in *. clearbody e. intro A. lra.
Qed.

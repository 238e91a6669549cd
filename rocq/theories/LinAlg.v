(** Finite sums and the two facts about matrices used for the Hamiltonians: a
    Hermitian matrix has real eigenvalues, and the lists of roots of two equal products
    of linear factors are permutations of each other.  Nothing here models code; the
    definitions are the usual mathematical ones, used in statements. *)
From Coq Require Import Reals Lra Lia List Permutation.
From Coquelicot Require Import Coquelicot.
From Coq Require Import List.
Import ListNotations.
Open Scope R_scope.
Open Scope list_scope.

(** Sums over the first [n] naturals. *)
Fixpoint rsum (n : nat) (f : nat -> R) : R :=
  match n with O => 0 | S m => rsum m f + f m end.
Fixpoint csum (n : nat) (f : nat -> C) : C :=
  match n with O => 0%C | S m => (csum m f + f m)%C end.

Lemma rsum_ext n f g : (forall i, (i < n)%nat -> f i = g i) -> rsum n f = rsum n g.
Proof. induction n; intro H; simpl; auto. rewrite IHn, H; auto. Qed.
Lemma csum_ext n (f g : nat -> C) : (forall i, (i < n)%nat -> f i = g i) -> csum n f = csum n g.
Proof. induction n; intro H; simpl; auto. rewrite IHn, H; auto. Qed.
Lemma rsum_plus n f g : rsum n (fun i => f i + g i) = rsum n f + rsum n g.
Proof. induction n; simpl; [lra|]. rewrite IHn. lra. Qed.
Lemma rsum_scal n c f : rsum n (fun i => c * f i) = c * rsum n f.
Proof. induction n; simpl; [lra|]. rewrite IHn. lra. Qed.
Lemma rsum_opp n f : rsum n (fun i => - f i) = - rsum n f.
Proof. induction n; simpl; [lra|]. rewrite IHn. lra. Qed.
Lemma rsum_zero n f : (forall i, (i < n)%nat -> f i = 0) -> rsum n f = 0.
Proof. induction n; intro H; simpl; auto. rewrite IHn, H; auto; lra. Qed.
Lemma rsum_le n f g : (forall i, (i < n)%nat -> f i <= g i) -> rsum n f <= rsum n g.
Proof.
  induction n; intro H; simpl; [lra|].
  apply Rplus_le_compat; [apply IHn; auto|apply H; lia].
Qed.
Lemma rsum_nonneg n f : (forall i, (i < n)%nat -> 0 <= f i) -> 0 <= rsum n f.
Proof.
  intro H. rewrite <- (rsum_zero n (fun _ => 0)); [|auto]. apply rsum_le. exact H.
Qed.
Lemma rsum_pos n f i : (forall i, (i < n)%nat -> 0 <= f i) -> (i < n)%nat -> 0 < f i -> 0 < rsum n f.
Proof.
  induction n; intros H Hi Hp; [lia|]. simpl.
  destruct (Nat.eq_dec i n) as [->|Hn].
  - assert (0 <= rsum n f) by (apply rsum_nonneg; auto). lra.
  - assert (0 < rsum n f) by (apply IHn; auto; lia). assert (0 <= f n) by auto. lra.
Qed.
Lemma rsum_shift n f : rsum (S n) f = f 0%nat + rsum n (fun i => f (S i)).
Proof. induction n; simpl in *; [lra|]. rewrite IHn. lra. Qed.
Lemma rsum_single n f k : (k < n)%nat -> (forall i, (i < n)%nat -> i <> k -> f i = 0) -> rsum n f = f k.
Proof.
  induction n; intros Hk H; [lia|]. simpl. destruct (Nat.eq_dec k n) as [->|Hn].
  - rewrite rsum_zero; [lra|]. intros. apply H; lia.
  - rewrite IHn; [rewrite (H n); [lra|lia|lia]|lia|intros; apply H; lia].
Qed.
Lemma rsum_swap n m (f : nat -> nat -> R) :
  rsum n (fun i => rsum m (f i)) = rsum m (fun j => rsum n (fun i => f i j)).
Proof.
  induction n; simpl; [rewrite rsum_zero; auto|].
  rewrite IHn, <- rsum_plus. reflexivity.
Qed.

Lemma csum_plus n (f g : nat -> C) : csum n (fun i => f i + g i)%C = (csum n f + csum n g)%C.
Proof. induction n; simpl; [ring|]. rewrite IHn. ring. Qed.
Lemma csum_scal n (c : C) (f : nat -> C) : csum n (fun i => c * f i)%C = (c * csum n f)%C.
Proof. induction n; simpl; [ring|]. rewrite IHn. ring. Qed.
Lemma csum_conj n (f : nat -> C) : Cconj (csum n f) = csum n (fun i => Cconj (f i)).
Proof.
  induction n; simpl; [apply injective_projections; simpl; lra|].
  rewrite <- IHn. apply injective_projections; simpl; lra.
Qed.
Lemma csum_zero n (f : nat -> C) : (forall i, (i < n)%nat -> f i = 0%C) -> csum n f = 0%C.
Proof. induction n; intro H; simpl; auto. rewrite IHn, H; auto. ring. Qed.
Lemma csum_swap n m (f : nat -> nat -> C) :
  csum n (fun i => csum m (f i)) = csum m (fun j => csum n (fun i => f i j)).
Proof.
  induction n; simpl; [rewrite csum_zero; auto|].
  rewrite IHn, <- csum_plus. reflexivity.
Qed.
Lemma csum_R n f : csum n (fun i => RtoC (f i)) = RtoC (rsum n f).
Proof. induction n; simpl; auto. rewrite IHn. rewrite RtoC_plus. reflexivity. Qed.

(** [eigenpair n H l v]: v is a non-zero vector with H v = l v. *)
Definition eigenpair (n : nat) (H : nat -> nat -> C) (l : C) (v : nat -> C) : Prop :=
  (exists i, (i < n)%nat /\ v i <> 0%C) /\
  forall i, (i < n)%nat -> csum n (fun j => H i j * v j)%C = (l * v i)%C.
Definition hermitian (n : nat) (H : nat -> nat -> C) : Prop :=
  forall i j, (i < n)%nat -> (j < n)%nat -> H i j = Cconj (H j i).

Lemma Cconj_mult' (a b : C) : Cconj (a * b)%C = (Cconj a * Cconj b)%C.
Proof. apply injective_projections; simpl; ring. Qed.
Lemma Cconj_conj' (a : C) : Cconj (Cconj a) = a.
Proof. apply injective_projections; simpl; ring. Qed.
Lemma mod2 (a : C) : (Cconj a * a)%C = RtoC (fst a * fst a + snd a * snd a).
Proof. apply injective_projections; simpl; ring. Qed.

Theorem hermitian_eigenvalue_real n H l v : hermitian n H -> eigenpair n H l v -> snd l = 0.
Proof.
  intros Hh [[k [Hk Hv]] He].
  set (Q := csum n (fun i => csum n (fun j => Cconj (v i) * (H i j * v j)))%C).
  assert (Q1 : Q = (l * RtoC (rsum n (fun i => (fst (v i) * fst (v i) + snd (v i) * snd (v i))%R)))%C).
  { unfold Q. rewrite <- csum_R, <- csum_scal. apply csum_ext. intros i Hi.
    rewrite csum_scal, He by exact Hi. rewrite <- mod2. ring. }
  assert (Q2 : Cconj Q = Q).
  { transitivity (csum n (fun i => csum n (fun j => Cconj (Cconj (v i) * (H i j * v j))))%C).
    { unfold Q. rewrite csum_conj. apply csum_ext. intros i Hi. apply csum_conj. }
    rewrite csum_swap. apply csum_ext. intros j Hj. apply csum_ext. intros i Hi.
    rewrite !Cconj_mult', Cconj_conj', <- (Hh j i Hj Hi). ring. }
  set (N := rsum n _) in Q1.
  assert (HN : 0 < N).
  { apply (rsum_pos n _ k); auto.
    - intros. pose proof (Rle_0_sqr (fst (v i))). pose proof (Rle_0_sqr (snd (v i))). unfold Rsqr in *. lra.
    - assert (fst (v k) <> 0 \/ snd (v k) <> 0) as D.
      { destruct (Req_dec (fst (v k)) 0); [|auto]. destruct (Req_dec (snd (v k)) 0); [|auto].
        exfalso. apply Hv. apply injective_projections; simpl; auto. }
      pose proof (Rle_0_sqr (fst (v k))). pose proof (Rle_0_sqr (snd (v k))). unfold Rsqr in *.
      destruct D as [D|D]; [assert (0 < fst (v k) * fst (v k)) by nra|assert (0 < snd (v k) * snd (v k)) by nra]; lra. }
  apply (f_equal snd) in Q2. rewrite Q1 in Q2. simpl in Q2.
  assert (snd l * N = 0) by lra. apply Rmult_integral in H0. destruct H0; [auto|lra].
Qed.

(** Products of linear factors. *)
Fixpoint linprod (l : list R) (x : R) : R :=
  match l with [] => 1 | a :: l' => (x - a) * linprod l' x end.

Lemma linprod_root l x : linprod l x = 0 -> In x l.
Proof.
  induction l as [|a l IH]; simpl; [lra|]. intro H. apply Rmult_integral in H.
  destruct H as [H|H]; [left; lra|right; auto].
Qed.
Lemma linprod_perm l l' x : Permutation l l' -> linprod l x = linprod l' x.
Proof. induction 1; simpl; try rewrite IHPermutation; try lra; congruence. Qed.
Lemma linprod_continuous l x : continuous (linprod l) x.
Proof.
  induction l as [|a l IH]; simpl; [apply continuous_const|].
  apply (continuous_mult (fun x => x - a) (linprod l)); [|exact IH].
  apply (continuous_minus (fun x => x) (fun _ => a)); [apply continuous_id|apply continuous_const].
Qed.

Lemma continuous_punctured (f : R -> R) a : continuous f a -> (forall x, x <> a -> f x = 0) -> f a = 0.
Proof.
  intros Hc H. destruct (Req_dec (f a) 0) as [E|E]; [exact E|exfalso].
  assert (He : 0 < Rabs (f a)) by (apply Rabs_pos_lt; exact E).
  destruct (Hc (fun y => Rabs (y - f a) < Rabs (f a))) as [d Hd].
  { exists (mkposreal _ He). intros y Hy. exact Hy. }
  specialize (Hd (a + d / 2)). pose proof (cond_pos d) as Hp.
  assert (Hb : ball a d (a + d / 2)).
  { unfold ball; simpl. unfold AbsRing_ball, abs, minus, plus, opp; simpl.
    replace (a + d / 2 + - a) with (d / 2) by lra. rewrite Rabs_right; lra. }
  specialize (Hd Hb). rewrite (H (a + d / 2)) in Hd by lra.
  rewrite Rminus_0_l, Rabs_Ropp in Hd. lra.
Qed.

Theorem linprod_permutation l : forall l',
  length l = length l' -> (forall x, linprod l x = linprod l' x) -> Permutation l l'.
Proof.
  induction l as [|a l IH]; intros l' Hlen H; [destruct l'; [constructor|discriminate]|].
  assert (Hin : In a l').
  { apply linprod_root. rewrite <- H. simpl. lra. }
  apply in_split in Hin. destruct Hin as (l1 & l2 & ->).
  apply Permutation_cons_app. apply IH.
  - rewrite app_length in *. simpl in *. lia.
  - assert (Hp : Permutation (l1 ++ a :: l2) (a :: (l1 ++ l2))) by (symmetry; apply Permutation_middle).
    assert (E : forall x, x <> a -> linprod l x = linprod (l1 ++ l2) x).
    { intros x Hx. specialize (H x). rewrite (linprod_perm _ _ x Hp) in H. simpl in H.
      apply Rmult_eq_reg_l in H; [exact H|lra]. }
    intro x. destruct (Req_dec x a) as [->|Hx]; [|auto].
    assert (Z : linprod l a - linprod (l1 ++ l2) a = 0); [|lra].
    apply (continuous_punctured (fun x => linprod l x - linprod (l1 ++ l2) x) a).
    + apply (continuous_minus (linprod l) (linprod (l1 ++ l2))); apply linprod_continuous.
    + intros y Hy. rewrite (E y Hy). lra.
Qed.

Lemma csum_fst n f : fst (csum n f) = rsum n (fun i => fst (f i)).
Proof. induction n as [|n IH]; simpl; [reflexivity|]. rewrite IH. reflexivity. Qed.
Lemma csum_snd n f : snd (csum n f) = rsum n (fun i => snd (f i)).
Proof. induction n as [|n IH]; simpl; [reflexivity|]. rewrite IH. reflexivity. Qed.

(** Real matrices that are symmetric after scaling the rows by positive weights. *)
Section Weighted.
  Context (n : nat) (H : nat -> nat -> R) (c : nat -> R).
  Hypothesis Hc : forall i, (i < n)%nat -> 0 < c i.
  Hypothesis Hs : forall i j, (i < n)%nat -> (j < n)%nat -> c i * H i j = c j * H j i.
  Context (l : C) (v : nat -> C).
  Hypothesis He : eigenpair n (fun i j => RtoC (H i j)) l v.
  Let a i := fst (v i).
  Let b i := snd (v i).
  Let app (x : nat -> R) i := rsum n (fun j => H i j * x j).
  Let form (x y : nat -> R) := rsum n (fun i => c i * (x i * app y i)).

  Lemma weighted_rows i : (i < n)%nat ->
    app a i = fst l * a i - snd l * b i /\ app b i = fst l * b i + snd l * a i.
  Proof.
    intro Hi. destruct He as [_ E]. specialize (E i Hi). split.
    - apply (f_equal fst) in E. rewrite csum_fst in E. unfold app. simpl in E. fold (a i) (b i) in E.
      rewrite <- E. apply rsum_ext. intros j Hj. unfold a. ring.
    - apply (f_equal snd) in E. rewrite csum_snd in E. unfold app. simpl in E. fold (a i) (b i) in E.
      etransitivity; [|exact E]. apply rsum_ext. intros j Hj. unfold b. ring.
  Qed.
  Lemma weighted_form_sym x y : form x y = form y x.
  Proof.
    unfold form, app.
    transitivity (rsum n (fun i => rsum n (fun j => c i * H i j * (x i * y j)))).
    - apply rsum_ext. intros i Hi. rewrite <- !rsum_scal. apply rsum_ext. intros j Hj. ring.
    - rewrite rsum_swap. apply rsum_ext. intros j Hj. rewrite <- !rsum_scal. apply rsum_ext. intros i Hi.
      rewrite (Hs i j Hi Hj). ring.
  Qed.
  Lemma weighted_norm_pos : 0 < rsum n (fun i => c i * (a i * a i + b i * b i)).
  Proof.
    destruct He as [[k [Hk Hv]] _]. apply (rsum_pos _ _ k).
    - intros i Hi. apply Rmult_le_pos; [left; auto|nra].
    - exact Hk.
    - apply Rmult_lt_0_compat; [auto|].
      destruct (Req_dec (a k) 0) as [A|A], (Req_dec (b k) 0) as [B|B]; try nra.
      exfalso. apply Hv. apply injective_projections; assumption.
  Qed.
  Theorem weighted_real : snd l = 0.
  Proof.
    pose proof (weighted_form_sym a b) as E. unfold form in E.
    rewrite (rsum_ext n _ (fun i => fst l * (c i * (a i * b i)) + snd l * (c i * (a i * a i)))) in E.
    2:{ intros i Hi. rewrite (proj2 (weighted_rows i Hi)). ring. }
    rewrite (rsum_ext n (fun i => c i * (b i * app a i))
       (fun i => fst l * (c i * (a i * b i)) + (- snd l) * (c i * (b i * b i)))) in E.
    2:{ intros i Hi. rewrite (proj1 (weighted_rows i Hi)). ring. }
    rewrite !rsum_plus, !rsum_scal in E.
    assert (Z : snd l * rsum n (fun i => c i * (a i * a i + b i * b i)) = 0).
    { rewrite (rsum_ext n _ (fun i => c i * (a i * a i) + c i * (b i * b i))) by (intros; ring).
      rewrite rsum_plus. lra. }
    apply Rmult_integral in Z. pose proof weighted_norm_pos. destruct Z; lra.
  Qed.
  Theorem weighted_bound V :
    (forall x : nat -> R, V * rsum n (fun i => c i * (x i * x i)) <=
       rsum n (fun i => c i * (x i * rsum n (fun j => H i j * x j)))) ->
    V <= fst l.
  Proof.
    intro Hb. pose proof weighted_norm_pos as Hp. pose proof weighted_real as Hr.
    pose proof (Hb a) as Ha. pose proof (Hb b) as Hbb.
    rewrite (rsum_ext n (fun i => c i * (a i * rsum n (fun j => H i j * a j)))
       (fun i => fst l * (c i * (a i * a i)))) in Ha.
    2:{ intros i Hi. change (rsum n (fun j => H i j * a j)) with (app a i).
        rewrite (proj1 (weighted_rows i Hi)), Hr. ring. }
    rewrite (rsum_ext n (fun i => c i * (b i * rsum n (fun j => H i j * b j)))
       (fun i => fst l * (c i * (b i * b i)))) in Hbb.
    2:{ intros i Hi. change (rsum n (fun j => H i j * b j)) with (app b i).
        rewrite (proj2 (weighted_rows i Hi)), Hr. ring. }
    rewrite rsum_scal in Ha, Hbb.
    rewrite (rsum_ext n _ (fun i => c i * (a i * a i) + c i * (b i * b i))) in Hp by (intros; ring).
    rewrite rsum_plus in Hp.
    apply (Rmult_le_reg_r (rsum n (fun i => c i * (a i * a i)) + rsum n (fun i => c i * (b i * b i)))); [exact Hp|].
    lra.
  Qed.
End Weighted.

Lemma rsum_ind n k f : rsum n (fun j => if Nat.eqb j k then f j else 0) = if Nat.ltb k n then f k else 0.
Proof.
  destruct (Nat.ltb_spec k n) as [H|H].
  - rewrite (rsum_single n _ k H); [rewrite Nat.eqb_refl; reflexivity|].
    intros i _ Hi. destruct (Nat.eqb_spec i k); [contradiction|reflexivity].
  - apply rsum_zero. intros i Hi. destruct (Nat.eqb_spec i k); [lia|reflexivity].
Qed.

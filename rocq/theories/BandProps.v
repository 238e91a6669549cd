(** Property C135: the banded solver solves. *)
From Coq Require Import Reals List Bool Lia Lra Arith.
From Verif Require Import Common DDModel DDProps BandModel.
From Coq Require Import List.
Import ListNotations.
Open Scope R_scope.

(** The matrix that the compact array stands for (Numerical Recipes, 2.4): column c of row i
    is in place c - i + m1 + 1. *)
Definition dense (m1 m2 : nat) (a : nat -> nat -> R) (i c : nat) : R :=
  if (i <=? c + m1)%nat && (c <=? i + m2)%nat then a i (c + m1 + 1 - i)%nat else 0.
(** The product of row i with a vector. *)
Definition product (nrow m1 m2 : nat) (a : nat -> nat -> R) (x : nat -> R) (i : nat) : R :=
  sum_to (fun c => dense m1 m2 a i (c + 1) * x (c + 1)%nat) nrow.
(** No vector but zero is mapped to zero. *)
Definition regular (nrow m1 m2 : nat) (a : nat -> nat -> R) : Prop :=
  forall x, (forall i, (1 <= i <= nrow)%nat -> product nrow m1 m2 a x i = 0) -> forall i, (1 <= i <= nrow)%nat -> x i = 0.

Lemma sum_to_scal c g m : sum_to (fun k => c * g k) m = c * sum_to g m.
Proof. induction m as [|m IH]; cbn [sum_to]; [ring|rewrite IH; ring]. Qed.
Lemma sum_to_zero g m : (forall k, (k < m)%nat -> g k = 0) -> sum_to g m = 0.
Proof. induction m as [|m IH]; intros H; cbn [sum_to]; [reflexivity|]. rewrite IH by (intros; apply H; lia). rewrite H by lia. ring. Qed.
Lemma sum_to_split g m m' : sum_to g (m + m') = sum_to g m + sum_to (fun k => g (m + k)%nat) m'.
Proof. induction m' as [|m' IH]; [rewrite Nat.add_0_r; cbn [sum_to]; ring|]. rewrite Nat.add_succ_r. cbn [sum_to]. rewrite IH. ring. Qed.
Lemma sum_to_first g m : sum_to g (S m) = g 0%nat + sum_to (fun k => g (S k)) m.
Proof. change (S m) with (1 + m)%nat. rewrite sum_to_split. cbn [sum_to]. ring_simplify. reflexivity. Qed.
Lemma sum_to_tail g m m' : (m <= m')%nat -> (forall k, (m <= k)%nat -> g k = 0) -> sum_to g m' = sum_to g m.
Proof. intros L H. replace m' with (m + (m' - m))%nat by lia. rewrite sum_to_split, (sum_to_zero (fun k => g (m + k)%nat)); [ring|]. intros. apply H. lia. Qed.

Section Proofs.
Context (nrow m1 m2 : nat) (Hn : (m1 <= nrow)%nat).
Notation MM := (mm m1 m2).
Notation matrix := (nat -> nat -> R).

(** Row r whose first place stands for column off, times x. *)
Definition rowval (a : matrix) (r off : nat) (x : nat -> R) : R := sum_to (fun j => a r (j + 1)%nat * x (off + j)%nat) MM.
Lemma rowval_first a r off x : rowval a r off x = a r 1%nat * x off + sum_to (fun j => a r (j + 2)%nat * x (off + 1 + j)%nat) (MM - 1).
Proof.
  unfold rowval. replace MM with (S (MM - 1)) at 1 by (unfold mm; lia). rewrite sum_to_first. rewrite Nat.add_0_r. f_equal. apply sum_to_ext. intros k _.
  replace (S k + 1)%nat with (k + 2)%nat by lia. replace (off + S k)%nat with (off + 1 + k)%nat by lia. reflexivity.
Qed.
(** The equations of the rows k .. nrow before step k. *)
Definition sys (k : nat) (a : matrix) (b x : nat -> R) : Prop :=
  forall r, (k <= r <= nrow)%nat -> rowval a r (Nat.max k (r - m1)) x = b r.
Lemma sys_ext k a b x y : (forall c, (k <= c)%nat -> x c = y c) -> sys k a b x -> sys k a b y.
Proof.
  intros E H r L. rewrite <- (H r L). unfold rowval. apply sum_to_ext. intros j _. rewrite E by lia. reflexivity.
Qed.

Lemma pivot_range a k t : (k <= pivot a k t <= k + t)%nat.
Proof. induction t as [|t IH]; cbn [pivot]; [lia|]. destruct (Rlt_dec _ _); lia. Qed.
Lemma pivot_max a k t r : (k <= r <= k + t)%nat -> Rabs (a r 1%nat) <= Rabs (a (pivot a k t) 1%nat).
Proof.
  induction t as [|t IH]; intros L; cbn [pivot]; [assert (r = k) by lia; subst; lra|].
  destruct (Rlt_dec (Rabs (a (pivot a k t) 1%nat)) (Rabs (a (k + S t)%nat 1%nat))) as [H|H].
  - destruct (Nat.eq_dec r (k + S t)) as [->|N]; [lra|]. assert (Rabs (a r 1%nat) <= Rabs (a (pivot a k t) 1%nat)) by (apply IH; lia). lra.
  - destruct (Nat.eq_dec r (k + S t)) as [->|N]; [lra|]. apply IH. lia.
Qed.
Lemma piv_range a k : (k <= nrow)%nat -> (k <= piv nrow m1 a k <= last_row nrow m1 k)%nat.
Proof. intros L. unfold piv. pose proof (pivot_range a k (last_row nrow m1 k - k)). unfold last_row in *. lia. Qed.
Lemma swap_range k i r : (1 <= k)%nat -> (k <= i <= last_row nrow m1 k)%nat -> (k <= r <= last_row nrow m1 k)%nat ->
  (k <= swap_index k i r <= last_row nrow m1 k)%nat.
Proof. intros A B C. unfold swap_index. destruct (r =? k)%nat; [lia|]. destruct (r =? i)%nat; lia. Qed.
Lemma swap_out k i r : r <> k -> r <> i -> swap_index k i r = r.
Proof. intros A B. unfold swap_index. rewrite (proj2 (Nat.eqb_neq r k)), (proj2 (Nat.eqb_neq r i)) by assumption. reflexivity. Qed.
Lemma swap_twice k i r : swap_index k i (swap_index k i r) = r.
Proof.
  unfold swap_index. destruct (Nat.eqb_spec r k) as [->|]; [|destruct (Nat.eqb_spec r i) as [->|]].
  - destruct (Nat.eqb_spec i k) as [->|]; [reflexivity|]. now rewrite Nat.eqb_refl.
  - now rewrite Nat.eqb_refl.
  - rewrite (proj2 (Nat.eqb_neq r k)), (proj2 (Nat.eqb_neq r i)) by assumption. reflexivity.
Qed.
Lemma patched_same a k : a (piv nrow m1 a k) 1%nat <> 0 -> forall i j, patched nrow m1 a k i j = a i j.
Proof. intros N i j. unfold patched. destruct ((i =? k)%nat && (j =? 1)%nat); [|reflexivity]. now destruct (Req_EM_T _ _). Qed.

(** One step of elimination can be undone. *)
Lemma step_back k a b x : (1 <= k <= nrow)%nat -> a (piv nrow m1 a k) 1%nat <> 0 ->
  let a' := eliminated nrow m1 m2 a k in let b' := forward1 nrow m1 b k (piv nrow m1 a k, factor nrow m1 a k) in
  rowval a' k k x = b' k -> sys (k + 1) a' b' x -> sys k a b x.
Proof.
  intros Lk Np a' b' Hk Hs. pose proof (piv_range a k ltac:(lia)) as Hp. set (i := piv nrow m1 a k) in *.
  assert (EX : forall r j, exchanged nrow m1 a k r j = a (swap_index k i r) j) by (intros r j; unfold exchanged; now rewrite patched_same).
  assert (SK : swap_index k i k = i) by (unfold swap_index; now rewrite Nat.eqb_refl).
  assert (Hk' : rowval a i k x = b i).
  { unfold a', b', forward1 in Hk. cbn [fst snd] in Hk. rewrite (proj2 (Nat.ltb_ge k k)) in Hk by lia. cbn [andb] in Hk. fold i in Hk. rewrite SK in Hk.
    rewrite <- Hk. unfold rowval. apply sum_to_ext. intros j _. unfold eliminated. rewrite (proj2 (Nat.ltb_ge k k)) by lia. cbn [andb]. rewrite EX, SK. reflexivity. }
  assert (Hr : forall r, (k < r <= last_row nrow m1 k)%nat -> rowval a (swap_index k i r) k x = b (swap_index k i r)).
  { intros r Lr. assert (Lr' : (k + 1 <= r <= nrow)%nat) by (unfold last_row in Lr; lia). specialize (Hs r Lr').
    replace (Nat.max (k + 1) (r - m1)) with (k + 1)%nat in Hs by (unfold last_row in Lr; lia).
    unfold b', forward1 in Hs. cbn [fst snd] in Hs. rewrite (proj2 (Nat.ltb_lt k r)), (proj2 (Nat.leb_le r (last_row nrow m1 k))) in Hs by lia. cbn [andb] in Hs. fold i in Hs. rewrite SK in Hs.
    assert (E : rowval a' r (k + 1) x = rowval a (swap_index k i r) k x - factor nrow m1 a k r * rowval a i k x).
    { rewrite !(rowval_first a). unfold rowval. unfold a', eliminated. rewrite (proj2 (Nat.ltb_lt k r)), (proj2 (Nat.leb_le r (last_row nrow m1 k))) by lia. cbn [andb].
      assert (F : factor nrow m1 a k r * a i 1%nat = a (swap_index k i r) 1%nat) by (unfold factor; rewrite !EX, SK; field; exact Np).
      replace MM with (MM - 1 + 1)%nat at 1 by (unfold mm; lia). rewrite sum_to_split.
      rewrite (sum_to_zero (fun j => (if (MM - 1 + j + 1 <? MM)%nat then _ else 0) * _)).
      2:{ intros j Lj. rewrite (proj2 (Nat.ltb_ge (MM - 1 + j + 1) MM)) by lia. ring. }
      rewrite (sum_to_ext _ (fun j => a (swap_index k i r) (j + 2)%nat * x (k + 1 + j)%nat - factor nrow m1 a k r * (a i (j + 2)%nat * x (k + 1 + j)%nat)) (MM - 1)).
      - rewrite sum_to_minus, sum_to_scal, <- F. ring.
      - intros j Lj. rewrite (proj2 (Nat.ltb_lt (j + 1) MM)) by lia. rewrite !EX, SK. replace (j + 1 + 1)%nat with (j + 2)%nat by lia. ring. }
    rewrite E, Hk' in Hs. lra. }
  intros r Lr. destruct (le_lt_dec r (last_row nrow m1 k)) as [L|L].
  - replace (Nat.max k (r - m1)) with k by (unfold last_row in L; lia).
    destruct (Nat.eq_dec r i) as [->|Ni]; [exact Hk'|]. destruct (Nat.eq_dec r k) as [->|Nk].
    + specialize (Hr i). assert (SI : swap_index k i i = k) by (unfold swap_index; rewrite (proj2 (Nat.eqb_neq i k)) by lia; now rewrite Nat.eqb_refl). rewrite SI in Hr. apply Hr. lia.
    + specialize (Hr r). rewrite (swap_out k i r) in Hr by assumption. apply Hr. lia.
  - specialize (Hs r). assert (Lr' : (k + 1 <= r <= nrow)%nat) by lia. specialize (Hs Lr').
    assert (X : (m1 + k < r)%nat) by (unfold last_row in L; lia).
    replace (Nat.max k (r - m1)) with (r - m1)%nat by lia. replace (Nat.max (k + 1) (r - m1)) with (r - m1)%nat in Hs by lia.
    unfold b', forward1 in Hs. cbn [fst snd] in Hs. rewrite (proj2 (Nat.leb_gt r (last_row nrow m1 k))), andb_false_r in Hs by lia. fold i in Hs.
    rewrite swap_out in Hs by lia. rewrite <- Hs. unfold rowval. apply sum_to_ext. intros j _. unfold a', eliminated.
    rewrite (proj2 (Nat.leb_gt r (last_row nrow m1 k))), andb_false_r by lia. rewrite EX, swap_out by lia. reflexivity.
Qed.

(** Rows before k are not touched from step k on. *)
Lemma eliminated_above a k r j : (r < k)%nat -> (k <= nrow)%nat -> eliminated nrow m1 m2 a k r j = a r j.
Proof.
  intros L Lk. pose proof (piv_range a k Lk) as Hp. unfold eliminated. rewrite (proj2 (Nat.ltb_ge k r)) by lia. cbn [andb]. unfold exchanged. rewrite swap_out by lia.
  unfold patched. rewrite (proj2 (Nat.eqb_neq r k)) by lia. reflexivity.
Qed.
Lemma bandec_above t a k r j : (r < k)%nat -> (k + t <= nrow + 1)%nat -> fst (bandec nrow m1 m2 a k t) r j = a r j.
Proof.
  revert a k. induction t as [|t IH]; intros a k L Lk; cbn [bandec]; [reflexivity|].
  specialize (IH (eliminated nrow m1 m2 a k) (k + 1)%nat ltac:(lia) ltac:(lia)). destruct (bandec nrow m1 m2 (eliminated nrow m1 m2 a k) (k + 1) t) as [u l].
  cbn [fst] in *. rewrite IH. apply eliminated_above; lia.
Qed.
Lemma forward1_above b k e r : (r < k)%nat -> (k <= fst e)%nat -> forward1 nrow m1 b k e r = b r.
Proof. intros L Le. unfold forward1. rewrite (proj2 (Nat.ltb_ge k r)) by lia. cbn [andb]. now rewrite swap_out by lia. Qed.
Lemma forward_above t a b k r : (r < k)%nat -> (k + t <= nrow + 1)%nat -> forward nrow m1 b k (snd (bandec nrow m1 m2 a k t)) r = b r.
Proof.
  revert a b k. induction t as [|t IH]; intros a b k L Lk; cbn [bandec]; [reflexivity|].
  specialize (IH (eliminated nrow m1 m2 a k) (forward1 nrow m1 b k (piv nrow m1 a k, factor nrow m1 a k)) (k + 1)%nat ltac:(lia) ltac:(lia)).
  destruct (bandec nrow m1 m2 (eliminated nrow m1 m2 a k) (k + 1) t) as [u l]. cbn [snd forward] in *. rewrite IH. apply forward1_above; [assumption|].
  cbn [fst]. pose proof (piv_range a k ltac:(lia)). lia.
Qed.

(** No pivot vanishes in the t steps from k on. *)
Fixpoint pivots_ok (a : matrix) (k t : nat) : Prop :=
  match t with O => True | S t' => a (piv nrow m1 a k) 1%nat <> 0 /\ pivots_ok (eliminated nrow m1 m2 a k) (k + 1) t' end.

Lemma run_back t : forall a b k x, (1 <= k)%nat -> (k + t = nrow + 1)%nat -> pivots_ok a k t ->
  (forall r, (k <= r <= nrow)%nat -> rowval (fst (bandec nrow m1 m2 a k t)) r r x = forward nrow m1 b k (snd (bandec nrow m1 m2 a k t)) r) -> sys k a b x.
Proof.
  induction t as [|t IH]; intros a b k x L1 L2 Pv H; [intros r Lr; lia|]. cbn [pivots_ok] in Pv. destruct Pv as [P1 P2]. cbn [bandec] in H.
  pose proof (bandec_above t (eliminated nrow m1 m2 a k) (k + 1) k) as Ab.
  pose proof (forward_above t (eliminated nrow m1 m2 a k) (forward1 nrow m1 b k (piv nrow m1 a k, factor nrow m1 a k)) (k + 1) k ltac:(lia) ltac:(lia)) as Fw.
  specialize (IH (eliminated nrow m1 m2 a k) (forward1 nrow m1 b k (piv nrow m1 a k, factor nrow m1 a k)) (k + 1)%nat x ltac:(lia) ltac:(lia) P2).
  destruct (bandec nrow m1 m2 (eliminated nrow m1 m2 a k) (k + 1) t) as [u l] eqn:E. cbn [fst snd forward] in *.
  apply step_back; [lia|assumption| |].
  - rewrite <- Fw, <- (H k ltac:(lia)). unfold rowval. apply sum_to_ext. intros j _. rewrite Ab by lia. reflexivity.
  - apply IH. intros r Lr. apply H. lia.
Qed.
Lemma frozen_pivot t : forall a k r, (1 <= k)%nat -> (k + t = nrow + 1)%nat -> pivots_ok a k t -> (k <= r <= nrow)%nat -> fst (bandec nrow m1 m2 a k t) r 1%nat <> 0.
Proof.
  induction t as [|t IH]; intros a k r L1 L2 Pv Lr; [lia|]. cbn [pivots_ok] in Pv. destruct Pv as [P1 P2]. cbn [bandec].
  pose proof (bandec_above t (eliminated nrow m1 m2 a k) (k + 1) k 1) as Ab. specialize (IH (eliminated nrow m1 m2 a k) (k + 1)%nat r ltac:(lia) ltac:(lia) P2).
  destruct (bandec nrow m1 m2 (eliminated nrow m1 m2 a k) (k + 1) t) as [u l] eqn:E. cbn [fst] in *. destruct (Nat.eq_dec r k) as [->|N]; [|apply IH; lia].
  rewrite Ab by lia. unfold eliminated. rewrite (proj2 (Nat.ltb_ge k k)) by lia. cbn [andb]. unfold exchanged. rewrite patched_same by assumption.
  unfold swap_index. now rewrite Nat.eqb_refl.
Qed.

(** Back substitution. *)
Definition ext (x : nat -> R) (c : nat) : R := if (1 <=? c)%nat && (c <=? nrow)%nat then x c else 0.
Lemma ext_in x c : (1 <= c <= nrow)%nat -> ext x c = x c.
Proof. intros L. unfold ext. now rewrite (proj2 (Nat.leb_le 1 c)), (proj2 (Nat.leb_le c nrow)) by lia. Qed.
Lemma ext_out x c : (nrow < c)%nat -> ext x c = 0.
Proof. intros L. unfold ext. rewrite (proj2 (Nat.leb_gt c nrow)) by lia. now rewrite andb_false_r. Qed.
Lemma back_spec a b t : (t <= nrow)%nat -> (forall r, (1 <= r <= nrow)%nat -> a r 1%nat <> 0) ->
  (forall c, (c <= nrow - t)%nat -> back nrow m1 m2 a b t c = b c) /\
  (forall r, (nrow - t < r <= nrow)%nat -> rowval a r r (ext (back nrow m1 m2 a b t)) = b r).
Proof.
  intros Lt Hp. induction t as [|t IH]; [split; [reflexivity|intros; lia]|]. destruct (IH ltac:(lia)) as [I1 I2]. cbn [back]. set (x := back nrow m1 m2 a b t) in *.
  set (i := (nrow - t)%nat). assert (Li : (1 <= i <= nrow)%nat) by (unfold i; lia). split.
  - intros c Lc. unfold upd. rewrite (proj2 (Nat.eqb_neq c i)) by (unfold i; lia). apply I1. lia.
  - intros r Lr. set (v := (x i - _) / _). assert (EU : forall c, (i < c)%nat -> ext (upd x i v) c = ext x c).
    { intros c Lc. unfold ext. destruct (_ && _); [|reflexivity]. unfold upd. now rewrite (proj2 (Nat.eqb_neq c i)) by lia. }
    destruct (Nat.eq_dec r i) as [->|N].
    + rewrite rowval_first. rewrite (ext_in _ i Li). assert (U : upd x i v i = v) by (unfold upd; now rewrite Nat.eqb_refl). rewrite U.
      rewrite (sum_to_ext _ (fun j => a i (j + 2)%nat * ext x (i + j + 1)%nat)) by (intros j _; rewrite EU by lia; now replace (i + 1 + j)%nat with (i + j + 1)%nat by lia).
      assert (S' : sum_to (fun j => a i (j + 2)%nat * ext x (i + j + 1)%nat) (MM - 1) = sum_to (fun k => a i (k + 2)%nat * x (i + k + 1)%nat) (Nat.min MM (S t) - 1)).
      { replace (MM - 1)%nat with (Nat.min MM (S t) - 1 + (MM - Nat.min MM (S t)))%nat by (unfold mm; lia). rewrite sum_to_split.
        rewrite (sum_to_zero (fun k => a i (Nat.min MM (S t) - 1 + k + 2)%nat * _)).
        - rewrite Rplus_0_r. apply sum_to_ext. intros k Lk. rewrite ext_in; [reflexivity|]. unfold i. lia.
        - intros k Lk. rewrite ext_out; [ring|]. unfold i. lia. }
      rewrite S'. unfold v. rewrite <- (I1 i) by (unfold i; lia). fold x. field. apply Hp. exact Li.
    + rewrite <- (I2 r) by (unfold i in N; lia). unfold rowval. apply sum_to_ext. intros j _. rewrite EU by (unfold i in *; lia). reflexivity.
Qed.

(** A vanishing pivot means that the rows map a vector other than zero to zero. *)
Lemma kernel t : forall a k, (1 <= k)%nat -> (k + t = nrow + 1)%nat -> pivots_ok a k t \/
  exists x c, (k <= c <= nrow)%nat /\ x c <> 0 /\ (forall c', (nrow < c')%nat -> x c' = 0) /\ sys k a (fun _ => 0) x.
Proof.
  induction t as [|t IH]; intros a k L1 L2; [left; exact I|].
  destruct (Req_dec (a (piv nrow m1 a k) 1%nat) 0) as [E|N].
  - right. exists (fun c => if (c =? k)%nat then 1 else 0), k. split; [lia|]. rewrite Nat.eqb_refl. split; [lra|]. split; [intros c' L; now rewrite (proj2 (Nat.eqb_neq c' k)) by lia|].
    intros r Lr. rewrite rowval_first. rewrite sum_to_zero.
    + destruct (Nat.eqb_spec (Nat.max k (r - m1)) k) as [Em|Nm]; [|ring].
      assert (Z0 : a r 1%nat = 0).
      { assert (Hm : Rabs (a r 1%nat) <= Rabs (a (piv nrow m1 a k) 1%nat)) by (apply pivot_max; unfold last_row; lia).
        rewrite E, Rabs_R0 in Hm. pose proof (Rabs_pos (a r 1%nat)). destruct (Req_dec (a r 1%nat) 0) as [Z|Z]; [exact Z|]. apply Rabs_pos_lt in Z. lra. }
      rewrite Z0. ring.
    + intros j _. rewrite (proj2 (Nat.eqb_neq (Nat.max k (r - m1) + 1 + j) k)) by lia. ring.
  - destruct (IH (eliminated nrow m1 m2 a k) (k + 1)%nat ltac:(lia) ltac:(lia)) as [Ok'|(x & c & Lc & Xc & X0 & Sx)]; [left; split; assumption|right]. set (a' := eliminated nrow m1 m2 a k) in *.
    set (v := - sum_to (fun j => a' k (j + 2)%nat * x (k + 1 + j)%nat) (MM - 1) / a' k 1%nat).
    assert (Pk : a' k 1%nat <> 0).
    { unfold a', eliminated. rewrite (proj2 (Nat.ltb_ge k k)) by lia. cbn [andb]. unfold exchanged. rewrite patched_same by assumption. unfold swap_index. now rewrite Nat.eqb_refl. }
    assert (EU : forall c', (k < c')%nat -> upd x k v c' = x c') by (intros c' L; unfold upd; now rewrite (proj2 (Nat.eqb_neq c' k)) by lia).
    exists (upd x k v), c. split; [lia|]. split; [now rewrite EU by lia|]. split; [intros c' L; rewrite EU by lia; now apply X0|].
    assert (F0 : forall r, forward1 nrow m1 (fun _ => 0) k (piv nrow m1 a k, factor nrow m1 a k) r = 0) by (intros r; unfold forward1; destruct (_ && _); ring).
    apply step_back; [lia|assumption| |].
    + rewrite F0. fold a'. rewrite rowval_first. rewrite (sum_to_ext _ (fun j => a' k (j + 2)%nat * x (k + 1 + j)%nat)) by (intros j _; now rewrite EU by lia).
      unfold upd. rewrite Nat.eqb_refl. unfold v. field. exact Pk.
    + fold a'. apply (sys_ext (k + 1) a' _ x); [intros c' L; symmetry; apply EU; lia|]. intros r Lr. rewrite F0. apply (Sx r Lr).
Qed.

(** The shifted rows stand for the matrix. *)
Lemma shift_product a x i : (1 <= i <= nrow)%nat -> (forall c, (nrow < c)%nat -> x c = 0) ->
  rowval (shift_rows m1 m2 a) i (Nat.max 1 (i - m1)) x = product nrow m1 m2 a x i.
Proof.
  intros Li X0. unfold rowval, product. set (off := Nat.max 1 (i - m1)).
  set (g := fun c => dense m1 m2 a i (c + 1) * x (c + 1)%nat).
  assert (G : forall j, (j < MM)%nat -> shift_rows m1 m2 a i (j + 1) * x (off + j)%nat = g (off - 1 + j)%nat).
  { intros j Lj. unfold g. replace (off - 1 + j + 1)%nat with (off + j)%nat by (unfold off; lia). f_equal. unfold shift_rows, dense.
    destruct (le_lt_dec i m1) as [L|L].
    - rewrite (proj2 (Nat.leb_le i m1)) by lia. assert (Eo : off = 1%nat) by (unfold off; lia). rewrite Eo.
      rewrite (proj2 (Nat.leb_le i (1 + j + m1))) by lia. cbn [andb].
      destruct (Nat.leb_spec (j + 1 + (m1 + 1 - i)) MM) as [B|B]; destruct (Nat.leb_spec (1 + j) (i + m2)) as [C|C]; try (unfold mm in *; lia); [|reflexivity].
      f_equal. lia.
    - rewrite (proj2 (Nat.leb_gt i m1)) by lia. assert (Eo : off = (i - m1)%nat) by (unfold off; lia). rewrite Eo.
      rewrite (proj2 (Nat.leb_le i (i - m1 + j + m1))), (proj2 (Nat.leb_le (i - m1 + j) (i + m2))) by (unfold mm in *; lia). cbn [andb]. f_equal. lia. }
  rewrite (sum_to_ext _ _ _ G).
  assert (A : sum_to g (off - 1 + MM) = sum_to (fun j => g (off - 1 + j)%nat) MM).
  { rewrite sum_to_split, sum_to_zero; [ring|]. intros c Lc. unfold g, dense. rewrite (proj2 (Nat.leb_gt i (c + 1 + m1))) by (unfold off in Lc; lia). cbn [andb]. ring. }
  rewrite <- A. destruct (le_lt_dec (off - 1 + MM) nrow) as [L|L].
  - symmetry. apply sum_to_tail; [assumption|]. intros c Lc. unfold g, dense. rewrite (proj2 (Nat.leb_gt (c + 1) (i + m2))) by (unfold off, mm in Lc; lia). rewrite andb_false_r. ring.
  - apply sum_to_tail; [lia|]. intros c Lc. unfold g. rewrite X0 by lia. ring.
Qed.
Lemma product_ext a x y i : (forall c, (1 <= c <= nrow)%nat -> x c = y c) -> product nrow m1 m2 a x i = product nrow m1 m2 a y i.
Proof. intros E. unfold product. apply sum_to_ext. intros c Lc. now rewrite E by lia. Qed.
End Proofs.

(** C135: for every regular banded matrix at least as large as its lower band, in compact
    storage (with whatever stands in the unused corners), the solver returns the solution. *)
Theorem C135_solve : forall nrow m1 m2 a b, (m1 <= nrow)%nat -> regular nrow m1 m2 a ->
  forall i, (1 <= i <= nrow)%nat -> product nrow m1 m2 a (solve_lin nrow m1 m2 a b) i = b i.
Proof.
  intros nrow m1 m2 a b Hn Rg. set (s := shift_rows m1 m2 a).
  assert (Pv : pivots_ok nrow m1 m2 s 1 nrow).
  { destruct (kernel nrow m1 m2 Hn nrow s 1 ltac:(lia) ltac:(lia)) as [P|(x & c & Lc & Xc & X0 & Sx)]; [exact P|exfalso].
    apply Xc. apply (Rg x); [|exact Lc]. intros i Li. rewrite <- (shift_product nrow m1 m2 Hn a x i Li X0). apply (Sx i). lia. }
  intros i Li. rewrite (product_ext nrow m1 m2 Hn a _ (ext nrow (solve_lin nrow m1 m2 a b))) by (intros c Lc; symmetry; apply (ext_in nrow m1 Hn); exact Lc).
  rewrite <- (shift_product nrow m1 m2 Hn a _ i Li (fun c L => ext_out nrow m1 Hn _ c L)).
  assert (Sy : sys nrow m1 m2 1 s b (ext nrow (solve_lin nrow m1 m2 a b))).
  { apply (run_back nrow m1 m2 Hn nrow); [lia|lia|exact Pv|]. intros r Lr. unfold solve_lin. fold s.
    pose proof (fun r => frozen_pivot nrow m1 m2 Hn nrow s 1 r ltac:(lia) ltac:(lia) Pv) as Fz.
    destruct (bandec nrow m1 m2 s 1 nrow) as [u l]. cbn [fst snd] in *.
    apply (proj2 (back_spec nrow m1 m2 Hn u (forward nrow m1 b 1 l) nrow ltac:(lia) Fz)). lia. }
  apply (Sy i). lia.
Qed.

Lemma product_minus nrow m1 m2 a x y i : product nrow m1 m2 a (fun c => x c - y c) i = product nrow m1 m2 a x i - product nrow m1 m2 a y i.
Proof. unfold product. rewrite <- sum_to_minus. apply sum_to_ext. intros c _. ring. Qed.
(** C135: and it is the only one. *)
Theorem C135_unique : forall nrow m1 m2 a b x, (m1 <= nrow)%nat -> regular nrow m1 m2 a ->
  (forall i, (1 <= i <= nrow)%nat -> product nrow m1 m2 a x i = b i) -> forall i, (1 <= i <= nrow)%nat -> solve_lin nrow m1 m2 a b i = x i.
Proof.
  intros nrow m1 m2 a b x Hn Rg Hx i Li. apply Rminus_diag_uniq.
  apply (Rg (fun c => solve_lin nrow m1 m2 a b c - x c)); [|exact Li]. intros r Lr. rewrite product_minus, C135_solve, Hx by assumption. ring.
Qed.

(** A regular matrix that cannot be eliminated without interchanging rows, with rubbish in the
    unused corners: rows 0 1 0, 1 0 1, 0 1 1. *)
Definition band_case (i j : nat) : R :=
  match i, j with
  | 1%nat, 1%nat => 7 | 1%nat, 2%nat => 0 | 1%nat, 3%nat => 1
  | 2%nat, 2%nat => 0 | 2%nat, _ => 1
  | _, 3%nat => 9 | _, _ => 1
  end.
Example C135_case : regular 3 1 1 band_case /\ piv 3 1 (shift_rows 1 1 band_case) 1 = 2%nat /\
  forall b, product 3 1 1 band_case (solve_lin 3 1 1 band_case b) 1 = b 1%nat.
Proof.
  assert (Rg : regular 3 1 1 band_case).
  { intros x H. pose proof (H 1%nat ltac:(lia)) as H1. pose proof (H 2%nat ltac:(lia)) as H2. pose proof (H 3%nat ltac:(lia)) as H3.
    unfold product, dense in *. cbn in H1, H2, H3. intros i Li. assert (C : i = 1%nat \/ i = 2%nat \/ i = 3%nat) by lia. destruct C as [-> | [-> | ->]]; lra. }
  split; [exact Rg|]. split.
  - unfold piv. change (last_row 3 1 1 - 1)%nat with 1%nat. cbn. destruct (Rlt_dec (Rabs 0) (Rabs 1)) as [L|L]; [reflexivity|]. exfalso. apply L. rewrite Rabs_R0, Rabs_R1. lra.
  - intros b. apply C135_solve; [lia|exact Rg|lia].
Qed.

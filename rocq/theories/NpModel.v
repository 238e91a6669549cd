(** numpy functions on arrays of ideal reals used by the solvers: [np.interp],
    [np.sort], [np.nanmax], [np.nanargmax].  Each one models the numpy call at
    the cited places; facts about them are at the end. *)
From Coq Require Import Reals List Bool Arith Lia Lra Psatz Permutation Sorted.
From Verif Require Import Common InterpModel InterpProps.
Import ListNotations.
Open Scope R_scope.
Open Scope list_scope.

(** Number of leading elements <= v (numpy's binary search on a non-decreasing
    array: the index j with xp[j] <= v < xp[j+1] is this number minus one). *)
Fixpoint count_le (l : list R) (v : R) : nat :=
  match l with
  | [] => 0
  | x :: l' => if Rle_dec x v then S (count_le l' v) else 0
  end.

(** [np.interp(v, xp, fp)] at one value, e.g. analytic_solar_cells/IV.py:57, 72, 74,
    107-108, tunnel_junctions.py:110-113: constant beyond both ends.  The numpy
    function also interpolates with a non-monotone [xp], without any meaning; the
    binary search is modelled for non-decreasing [xp] only. *)
Definition np_interp (xp fp : list R) (v : R) : R :=
  let k := count_le xp v in
  if Nat.eqb k 0 then at_ fp 0
  else if Nat.eqb k (length xp) then at_ fp (length xp - 1)
  else let slope := (at_ fp k - at_ fp (k - 1)) / (at_ xp k - at_ xp (k - 1)) in
       slope * (v - at_ xp (k - 1)) + at_ fp (k - 1).

(** [np.sort], IV.py:52. *)
Fixpoint insert_sorted (a : R) (l : list R) : list R :=
  match l with
  | [] => [a]
  | x :: l' => if Rle_dec a x then a :: l else x :: insert_sorted a l'
  end.
(** With [insert_sorted], IV.py:52. *)
Definition np_sort (l : list R) : list R := fold_right insert_sorted [] l.

(** [np.nanargmax], IV.py:110: first index of the maximum; of an empty array a
    ValueError.  There is no NaN among the reals. *)
Fixpoint argmax_from (best : nat) (bv : R) (i : nat) (l : list R) : nat :=
  match l with
  | [] => best
  | x :: l' => if Rlt_dec bv x then argmax_from i x (S i) l' else argmax_from best bv (S i) l'
  end.
(** With [argmax_from], IV.py:110. *)
Definition np_argmax (l : list R) : res nat :=
  match l with [] => Err ValueError | x :: l' => Ok (argmax_from 0 x 1 l') end.
(** [np.nanmax], IV.py:109. *)
Definition np_max (l : list R) : res R :=
  match l with [] => Err ValueError | x :: l' => Ok (fold_left Rmax l' x) end.

(** * Facts *)

(** For [np_trapz], analytic_solar_cells/detailed_balance.py:52-53, 72. *)
Definition nondecreasing (l : list R) : Prop :=
  forall i j, (i <= j < length l)%nat -> at_ l i <= at_ l j.

Lemma nondecreasing_tail a l : nondecreasing (a :: l) -> nondecreasing l.
Proof. intros H i j Hij. apply (H (S i) (S j)). simpl. lia. Qed.
Lemma increasing_nondecreasing l : increasing l -> nondecreasing l.
Proof. intros H i j Hij. now apply increasing_le. Qed.

Lemma count_le_spec l v : nondecreasing l ->
  (count_le l v <= length l)%nat /\
  (forall i, (i < count_le l v)%nat -> at_ l i <= v) /\
  (forall i, (count_le l v <= i < length l)%nat -> v < at_ l i).
Proof.
  induction l as [|a l IH]; intros H; simpl.
  - repeat split; intros; lia.
  - destruct (IH (nondecreasing_tail _ _ H)) as (I1 & I2 & I3). destruct (Rle_dec a v) as [Ha|Ha].
    + split; [lia|]. split.
      * intros [|i] Hi; [assumption|]. apply I2. lia.
      * intros [|i] Hi; [lia|]. apply I3. lia.
    + split; [lia|]. split; [intros; lia|]. intros [|i] Hi; [lra|].
      assert (at_ (a :: l) 0 <= at_ (a :: l) (S i)) by (apply H; simpl; lia). simpl in *. lra.
Qed.

(** The weights used by [np_interp] depend on [xp] and [v] only: the answer is
    (1-w) fp_i + w fp_{i+1}. *)
Lemma np_interp_weights xp v : nondecreasing xp -> (1 <= length xp)%nat ->
  exists i j w, (i < length xp)%nat /\ (j < length xp)%nat /\ (i <= j)%nat /\ 0 <= w <= 1 /\
    (forall fp, np_interp xp fp v = (1 - w) * at_ fp i + w * at_ fp j) /\
    (at_ xp 0 <= v <= at_ xp (length xp - 1) -> (1 - w) * at_ xp i + w * at_ xp j = v) /\
    (v < at_ xp 0 -> i = 0%nat /\ j = 0%nat) /\
    (at_ xp (length xp - 1) <= v -> i = (length xp - 1)%nat /\ j = (length xp - 1)%nat).
Proof.
  intros Hx Hl. destruct (count_le_spec xp v Hx) as (C1 & C2 & C3). unfold np_interp.
  set (k := count_le xp v) in *.
  destruct (Nat.eqb_spec k 0) as [Ek|Ek]; [|destruct (Nat.eqb_spec k (length xp)) as [El|El]].
  - exists 0%nat, 0%nat, 0. specialize (C3 0%nat ltac:(lia)).
    repeat split; try lia; try lra; intros; try lra.
    all: assert (at_ xp 0 <= at_ xp (length xp - 1)) by (apply Hx; lia); lra.
  - exists (length xp - 1)%nat, (length xp - 1)%nat, 0. specialize (C2 (length xp - 1)%nat ltac:(lia)).
    repeat split; try lia; try lra; intros; try lra.
    all: assert (at_ xp 0 <= at_ xp (length xp - 1)) by (apply Hx; lia); lra.
  - assert (Hlo : at_ xp (k - 1) <= v) by (apply C2; lia).
    assert (Hhi : v < at_ xp k) by (apply C3; lia).
    exists (k - 1)%nat, k, ((v - at_ xp (k - 1)) / (at_ xp k - at_ xp (k - 1))).
    repeat split; try lia.
    + apply Rmult_le_pos; [lra|]. left. apply Rinv_0_lt_compat. lra.
    + apply (Rmult_le_reg_r (at_ xp k - at_ xp (k - 1))); [lra|]. unfold Rdiv. rewrite Rmult_assoc, Rinv_l; lra.
    + intros fp. field. lra.
    + intros _. field. lra.
    + assert (at_ xp 0 <= at_ xp (k - 1)) by (apply Hx; lia). lra.
    + assert (at_ xp 0 <= at_ xp (k - 1)) by (apply Hx; lia). lra.
    + assert (at_ xp k <= at_ xp (length xp - 1)) by (apply Hx; lia). lra.
    + assert (at_ xp k <= at_ xp (length xp - 1)) by (apply Hx; lia). lra.
Qed.

Lemma np_interp_node xp fp i : increasing xp -> (i < length xp)%nat -> np_interp xp fp (at_ xp i) = at_ fp i.
Proof.
  intros Hx Hi. destruct (count_le_spec xp (at_ xp i) (increasing_nondecreasing _ Hx)) as (C1 & C2 & C3).
  unfold np_interp. set (k := count_le xp (at_ xp i)) in *.
  assert (Hk : k = S i).
  { destruct (lt_eq_lt_dec k (S i)) as [[H|H]|H]; [|assumption|].
    - specialize (C3 i ltac:(lia)). lra.
    - specialize (C2 (S i) ltac:(lia)). assert (at_ xp i < at_ xp (S i)) by (apply Hx; lia). lra. }
  rewrite Hk. destruct (Nat.eqb_spec (S i) 0); [lia|].
  destruct (Nat.eqb_spec (S i) (length xp)).
  - f_equal. lia.
  - replace (S i - 1)%nat with i by lia. assert (at_ xp i < at_ xp (S i)) by (apply Hx; lia). field. lra.
Qed.

Lemma np_interp_mono xp fp v w : nondecreasing xp -> nondecreasing fp -> length xp = length fp ->
  (1 <= length xp)%nat -> v <= w -> np_interp xp fp v <= np_interp xp fp w.
Proof.
  intros Hx Hf Hlen Hl Hvw.
  destruct (np_interp_weights xp v Hx Hl) as (i & j & a & Hi & Hj & Hij & Ha & Ea & Va & La & Ra).
  destruct (np_interp_weights xp w Hx Hl) as (i' & j' & b & Hi' & Hj' & Hij' & Hb & Eb & Vb & Lb & Rb).
  destruct (count_le_spec xp v Hx) as (C1 & C2 & C3). destruct (count_le_spec xp w Hx) as (D1 & D2 & D3).
  assert (Hk : (count_le xp v <= count_le xp w)%nat).
  { destruct (le_lt_dec (count_le xp v) (count_le xp w)); [assumption|].
    specialize (C2 (count_le xp w) ltac:(lia)). specialize (D3 (count_le xp w) ltac:(lia)). lra. }
  clear i j a Hi Hj Hij Ha Ea Va La Ra i' j' b Hi' Hj' Hij' Hb Eb Vb Lb Rb.
  unfold np_interp. set (k := count_le xp v) in *. set (l := count_le xp w) in *.
  assert (Cell : forall n u, (0 < n < length xp)%nat -> at_ xp (n - 1) <= u < at_ xp n ->
     at_ fp (n - 1) <= (at_ fp n - at_ fp (n - 1)) / (at_ xp n - at_ xp (n - 1)) * (u - at_ xp (n - 1)) + at_ fp (n - 1) <= at_ fp n).
  { intros n u Hn Hu. assert (at_ fp (n - 1) <= at_ fp n) by (apply Hf; lia).
    replace ((at_ fp n - at_ fp (n - 1)) / (at_ xp n - at_ xp (n - 1)) * (u - at_ xp (n - 1)))
      with ((at_ fp n - at_ fp (n - 1)) * ((u - at_ xp (n - 1)) / (at_ xp n - at_ xp (n - 1)))) by (field; lra).
    assert (0 <= (u - at_ xp (n - 1)) / (at_ xp n - at_ xp (n - 1)) <= 1).
    { split.
      - apply Rmult_le_pos; [lra|]. left. apply Rinv_0_lt_compat. lra.
      - apply (Rmult_le_reg_r (at_ xp n - at_ xp (n - 1))); [lra|]. unfold Rdiv. rewrite Rmult_assoc, Rinv_l; lra. }
    nra. }
  destruct (Nat.eqb_spec k 0) as [Ek|Ek].
  - destruct (Nat.eqb_spec l 0); [lra|]. destruct (Nat.eqb_spec l (length xp)).
    + apply Hf. lia.
    + pose proof (Cell l w ltac:(lia) ltac:(split; [apply D2; lia|apply D3; lia])).
      assert (at_ fp 0 <= at_ fp (l - 1)) by (apply Hf; lia). lra.
  - destruct (Nat.eqb_spec l 0); [lia|]. destruct (Nat.eqb_spec k (length xp)).
    + destruct (Nat.eqb_spec l (length xp)); [lra|lia].
    + pose proof (Cell k v ltac:(lia) ltac:(split; [apply C2; lia|apply C3; lia])).
      destruct (Nat.eqb_spec l (length xp)).
      * assert (at_ fp k <= at_ fp (length xp - 1)) by (apply Hf; lia). lra.
      * pose proof (Cell l w ltac:(lia) ltac:(split; [apply D2; lia|apply D3; lia])).
        destruct (Nat.eq_dec k l) as [E|E].
        -- rewrite <- E. apply Rplus_le_compat_r. apply Rmult_le_compat_l; [|lra].
           apply Rmult_le_pos; [assert (at_ fp (k - 1) <= at_ fp k) by (apply Hf; lia); lra|].
           left. apply Rinv_0_lt_compat. specialize (C2 (k - 1)%nat ltac:(lia)). specialize (C3 k ltac:(lia)). lra.
        -- assert (at_ fp k <= at_ fp (l - 1)) by (apply Hf; lia). lra.
Qed.

Lemma insert_perm a l : Permutation (a :: l) (insert_sorted a l).
Proof.
  induction l as [|x l IH]; simpl; [reflexivity|]. destruct (Rle_dec a x); [reflexivity|].
  rewrite perm_swap. now constructor.
Qed.
Lemma np_sort_perm l : Permutation l (np_sort l).
Proof.
  induction l as [|x l IH]; simpl; [reflexivity|]. rewrite IH at 1. apply insert_perm.
Qed.
Lemma np_sort_length l : length (np_sort l) = length l.
Proof. symmetry. apply Permutation_length, np_sort_perm. Qed.
Lemma insert_sorted_ok a l : StronglySorted Rle l -> StronglySorted Rle (insert_sorted a l).
Proof.
  induction 1 as [|x l Hs IH Hx]; simpl; [repeat constructor|]. destruct (Rle_dec a x) as [H|H].
  - constructor; [now constructor|]. constructor; [assumption|].
    eapply Forall_impl; [|exact Hx]. simpl. intros y Hy. lra.
  - constructor; [assumption|]. rewrite Forall_forall in *. intros y Hy.
    apply (Permutation_in y (Permutation_sym (insert_perm a l))) in Hy as [<-|Hy]; [lra|auto].
Qed.
Lemma np_sort_sorted l : StronglySorted Rle (np_sort l).
Proof. induction l as [|x l IH]; simpl; [constructor|]. now apply insert_sorted_ok. Qed.
Lemma sorted_nondecreasing l : StronglySorted Rle l -> nondecreasing l.
Proof.
  induction 1 as [|x l Hs IH Hx]; intros i j Hij; [simpl in Hij; lia|].
  destruct i as [|i], j as [|j]; simpl in *; try lra; try lia.
  - rewrite Forall_forall in Hx. apply Hx, nth_In. lia.
  - apply IH. lia.
Qed.
Lemma np_sort_nondecreasing l : nondecreasing (np_sort l).
Proof. apply sorted_nondecreasing, np_sort_sorted. Qed.

Lemma argmax_from_spec l : forall best bv i (full : list R),
  (forall n, (n < length l)%nat -> at_ full (i + n) = at_ l n) ->
  (best < i)%nat -> at_ full best = bv -> (forall n, (n < i)%nat -> at_ full n <= bv) ->
  (forall n, (n < best)%nat -> at_ full n < bv) ->
  let m := argmax_from best bv i l in
  (m < i + length l)%nat /\ (forall n, (n < i + length l)%nat -> at_ full n <= at_ full m) /\
  (forall n, (n < m)%nat -> at_ full n < at_ full m).
Proof.
  induction l as [|x l IH]; intros best bv i full Hfull Hb Hbv Hle Hlt; simpl.
  - rewrite Nat.add_0_r. subst bv. auto.
  - assert (Hx : at_ full i = x) by (rewrite <- (Nat.add_0_r i); apply Hfull; simpl; lia).
    assert (Hrest : forall n, (n < length l)%nat -> at_ full (S i + n) = at_ l n).
    { intros n Hn. replace (S i + n)%nat with (i + S n)%nat by lia. apply Hfull. simpl. lia. }
    replace (i + S (length l))%nat with (S i + length l)%nat by lia.
    destruct (Rlt_dec bv x) as [H|H].
    + apply IH; try assumption; try lia.
      * intros n Hn. destruct (Nat.eq_dec n i) as [->|]; [lra|]. specialize (Hle n ltac:(lia)). lra.
      * intros n Hn. specialize (Hle n Hn). lra.
    + apply IH; try assumption; try lia.
      intros n Hn. destruct (Nat.eq_dec n i) as [->|]; [lra|]. apply Hle. lia.
Qed.
Lemma np_argmax_spec l m : np_argmax l = Ok m ->
  (m < length l)%nat /\ (forall n, (n < length l)%nat -> at_ l n <= at_ l m) /\
  (forall n, (n < m)%nat -> at_ l n < at_ l m).
Proof.
  destruct l as [|x l]; [discriminate|]. intros [= <-].
  pose proof (argmax_from_spec l 0 x 1 (x :: l)) as H. cbv zeta in H. simpl length.
  apply H; auto; intros; try lia. assert (n = 0%nat) as -> by lia. simpl. lra.
Qed.
Lemma fold_Rmax_spec l : forall x, (x <= fold_left Rmax l x) /\ (forall y, In y l -> y <= fold_left Rmax l x) /\
  (fold_left Rmax l x = x \/ In (fold_left Rmax l x) l).
Proof.
  induction l as [|y l IH]; intros x; simpl.
  - split; [lra|]. split; [intros y []|now left].
  - destruct (IH (Rmax x y)) as (I1 & I2 & I3). pose proof (Rmax_l x y). pose proof (Rmax_r x y).
    split; [lra|]. split.
    + intros z [<-|Hz]; [lra|auto].
    + destruct I3 as [I3|I3]; [|auto]. rewrite I3. unfold Rmax. destruct (Rle_dec x y); auto.
Qed.
Lemma np_max_spec l m : np_max l = Ok m -> In m l /\ forall y, In y l -> y <= m.
Proof.
  destruct l as [|x l]; [discriminate|]. intros [= <-]. destruct (fold_Rmax_spec l x) as (I1 & I2 & I3).
  split; [destruct I3 as [-> |I3]; [now left|now right]|]. intros y [<-|Hy]; auto.
Qed.

(** [numpy.trapz(y, x)] for one-dimensional arrays, as used in
    analytic_solar_cells/detailed_balance.py:52-53, 72, 97. *)
Fixpoint np_trapz (y x : list R) : R :=
  match y, x with
  | y0 :: ((y1 :: _) as y'), x0 :: ((x1 :: _) as x') => (x1 - x0) * (y0 + y1) / 2 + np_trapz y' x'
  | _, _ => 0
  end.

Lemma np_trapz_cons y0 y1 y x0 x1 x :
  np_trapz (y0 :: y1 :: y) (x0 :: x1 :: x) = (x1 - x0) * (y0 + y1) / 2 + np_trapz (y1 :: y) (x1 :: x).
Proof. reflexivity. Qed.
Lemma np_trapz_nonneg : forall y x, length y = length x ->
  (forall v, In v y -> 0 <= v) -> nondecreasing x -> 0 <= np_trapz y x.
Proof.
  induction y as [|y0 [|y1 y] IH]; intros [|x0 [|x1 x]] Hl Hy Hx; simpl in Hl; try discriminate; try (simpl; lra).
  rewrite !np_trapz_cons. assert (0 <= np_trapz (y1 :: y) (x1 :: x)).
  { apply IH; [simpl; lia|intros v Hv; apply Hy; now right|].
    intros i j Hij. apply (Hx (S i) (S j)). simpl in *. lia. }
  assert (x0 <= x1) by (apply (Hx 0%nat 1%nat); simpl; lia).
  assert (0 <= y0) by (apply Hy; now left). assert (0 <= y1) by (apply Hy; right; now left).
  assert (0 <= (x1 - x0) * (y0 + y1)) by (apply Rmult_le_pos; lra). lra.
Qed.
Lemma np_trapz_scale k : forall y x, np_trapz (map (Rmult k) y) x = k * np_trapz y x.
Proof.
  induction y as [|y0 [|y1 y] IH]; intros [|x0 [|x1 x]]; try (simpl; ring).
  specialize (IH (x1 :: x)). cbn [map] in *. rewrite !np_trapz_cons, IH. field.
Qed.
Lemma np_trapz_le : forall y z x, length y = length x -> length z = length x ->
  (forall i, (i < length x)%nat -> at_ y i <= at_ z i) -> nondecreasing x -> np_trapz y x <= np_trapz z x.
Proof.
  induction y as [|y0 [|y1 y] IH]; intros [|z0 [|z1 z]] [|x0 [|x1 x]] Hl Hl2 Hy Hx; simpl in Hl, Hl2; try discriminate; try (simpl; lra).
  rewrite !np_trapz_cons. assert (np_trapz (y1 :: y) (x1 :: x) <= np_trapz (z1 :: z) (x1 :: x)).
  { apply IH; [simpl; lia|simpl; lia| |].
    - intros i Hi. apply (Hy (S i)). simpl in *. lia.
    - intros i j Hij. apply (Hx (S i) (S j)). simpl in *. lia. }
  assert (x0 <= x1) by (apply (Hx 0%nat 1%nat); simpl; lia).
  assert (y0 <= z0) by (apply (Hy 0%nat); simpl; lia). assert (y1 <= z1) by (apply (Hy 1%nat); simpl; lia).
  assert ((x1 - x0) * (y0 + y1) <= (x1 - x0) * (z0 + z1)) by (apply Rmult_le_compat_l; lra). lra.
Qed.

(** [scipy.interpolate.interp1d(x, y, bounds_error=False, fill_value=(lo, hi))] with
    increasing [x] at one value (linear kind): e.g. detailed_balance.py:78-79, 98. *)
Definition scipy_interp (x y : list R) (lo hi v : R) : R :=
  if Rlt_dec v (at_ x 0) then lo
  else if Rlt_dec (at_ x (length x - 1)) v then hi
  else call_linear x y v.

Lemma call_linear_bounds x y v a b : increasing x -> (2 <= length x)%nat -> length y = length x ->
  at_ x 0 <= v <= at_ x (length x - 1) -> (forall i, (i < length y)%nat -> a <= at_ y i <= b) ->
  a <= call_linear x y v <= b.
Proof.
  intros Hx Hl Hy Hv Hb. destruct (cell_exists x v Hl Hx Hv) as (i & Hi & Hc).
  rewrite (call_linear_cell x y v i Hx Hi Hc).
  assert (Hlt : at_ x i < at_ x (S i)) by (apply Hx; lia).
  assert (B0 := Hb i ltac:(lia)). assert (B1 := Hb (S i) ltac:(lia)).
  set (w := (v - at_ x i) / (at_ x (S i) - at_ x i)).
  assert (Hw : 0 <= w <= 1).
  { unfold w. split.
    - apply Rmult_le_pos; [lra|]. left. apply Rinv_0_lt_compat. lra.
    - apply (Rmult_le_reg_r (at_ x (S i) - at_ x i)); [lra|]. unfold Rdiv. rewrite Rmult_assoc, Rinv_l; lra. }
  fold w.
  split; nra.
Qed.
Lemma scipy_interp_bounds x y lo hi v a b : increasing x -> (2 <= length x)%nat -> length y = length x ->
  (forall i, (i < length y)%nat -> a <= at_ y i <= b) -> a <= lo <= b -> a <= hi <= b ->
  a <= scipy_interp x y lo hi v <= b.
Proof.
  intros Hx Hl Hy Hb Ha Hh. unfold scipy_interp. destruct (Rlt_dec _ _); [assumption|]. destruct (Rlt_dec _ _); [assumption|].
  apply call_linear_bounds; auto. lra.
Qed.
Lemma scipy_interp_node x y lo hi i : increasing x -> (2 <= length x)%nat -> (i < length x)%nat ->
  scipy_interp x y lo hi (at_ x i) = at_ y i.
Proof.
  intros Hx Hl Hi. unfold scipy_interp.
  assert (at_ x 0 <= at_ x i) by (apply increasing_le; [assumption|lia]).
  assert (at_ x i <= at_ x (length x - 1)) by (apply increasing_le; [assumption|lia]).
  destruct (Rlt_dec _ _); [lra|]. destruct (Rlt_dec _ _); [lra|].
  destruct (Nat.eq_dec i (length x - 1)) as [E|E].
  - destruct i as [|i]; [lia|]. assert (Hlt : at_ x i < at_ x (S i)) by (apply Hx; lia).
    rewrite (call_linear_cell x y (at_ x (S i)) i Hx Hi ltac:(lra)). field. lra.
  - assert (Hlt : at_ x i < at_ x (S i)) by (apply Hx; lia).
    rewrite (call_linear_cell x y (at_ x i) i Hx ltac:(lia) ltac:(lra)). field. lra.
Qed.

(** C148: the generation profile handed to the elements of the cell; the aliasing of elements
    (C147); examples for C147 and C149. *)
From Coq Require Import Reals String List Arith Bool Lra Lia Psatz.
From Coquelicot Require Import Coquelicot.
From Verif Require Import Common InterpModel InterpProps NpModel BeerLambertModel TmmLayersModel TmmLayersProps TmmModel TmmProps IncModel IncProps
  StackModel RatModel RatProps RatProps2.
From Coq Require Import List.
Import ListNotations.
Open Scope R_scope.
Open Scope list_scope.

(** * C148 *)
(** Depths in nm, more than a thousandth of a nanometre apart. *)
Definition spaced (p : list R) : Prop := forall i j, (i < j < length p)%nat -> at_ p i + / 1000 < at_ p j.
Lemma spaced_increasing p : spaced p -> increasing p.
Proof. intros H i j Hij. specialize (H i j Hij). lra. Qed.
Lemma scaled_z_at p i : at_ (scaled_z p) i = at_ p i * / 10 ^ 9.
Proof.
  unfold scaled_z. transitivity (nth i (map (fun p => p * / 10 ^ 9) p) (0 * / 10 ^ 9)); [f_equal; ring|].
  apply (map_nth (fun p => p * / 10 ^ 9)).
Qed.
Lemma scaled_abs_at k a i : at_ (scaled_abs k a) i = k * 10 ^ 9 * at_ a i.
Proof.
  unfold scaled_abs. transitivity (nth i (map (fun a => k * a / / 10 ^ 9) a) (k * 0 / / 10 ^ 9)); [f_equal; field|].
  rewrite (map_nth (fun a => k * a / / 10 ^ 9)). field.
Qed.
Lemma scaled_z_increasing p : increasing p -> increasing (scaled_z p).
Proof.
  intros H i j Hij. unfold scaled_z in Hij. rewrite map_length in Hij. rewrite !scaled_z_at.
  apply Rmult_lt_compat_r; [apply Rinv_0_lt_compat; lra|]. now apply H.
Qed.
Lemma gap p i j : spaced p -> (i < j < length p)%nat ->
  / 10 ^ 12 < Rabs (at_ (scaled_z p) j - at_ (scaled_z p) i).
Proof.
  intros H Hij. rewrite !scaled_z_at. specialize (H i j Hij).
  assert (K : 0 < / 10 ^ 9) by (apply Rinv_0_lt_compat; lra).
  replace (/ 10 ^ 12) with (/ 1000 * / 10 ^ 9) by field. set (k := / 10 ^ 9) in *. clearbody k.
  rewrite Rabs_pos_eq; nra.
Qed.
(** Inside the grid the value is the linear interpolation between the two neighbouring points,
    per metre and scaled with the light that is not in the shade; at the grid points it is the
    given one. *)
Theorem C148_between : forall initial p a z i, spaced p -> length a = length p -> (S i < length p)%nat ->
  at_ p i <= z * 10 ^ 9 <= at_ p (S i) ->
  diff_absorption initial p a z =
  Ok (initial * 10 ^ 9 *
      (at_ a i + (z * 10 ^ 9 - at_ p i) / (at_ p (S i) - at_ p i) * (at_ a (S i) - at_ a i))).
Proof.
  intros k p a z i Hp La Hi Hz. unfold diff_absorption. cbv zeta.
  assert (Inc := scaled_z_increasing p (spaced_increasing p Hp)).
  destruct (searchsorted_spec (scaled_z p) z Inc) as (S1 & S2 & S3).
  assert (L : length (scaled_z p) = length p) by (unfold scaled_z; apply map_length). rewrite L in *.
  set (q := searchsorted (scaled_z p) z) in *. clearbody q.
  assert (K : 0 < / 10 ^ 9) by (apply Rinv_0_lt_compat; lra).
  assert (KK : / 10 ^ 9 * 10 ^ 9 = 1) by field.
  assert (Lo : at_ (scaled_z p) i <= z).
  { rewrite scaled_z_at. apply Rmult_le_reg_r with (10 ^ 9); [lra|]. rewrite Rmult_assoc, KK. lra. }
  assert (Hi' : z <= at_ (scaled_z p) (S i)).
  { rewrite scaled_z_at. apply Rmult_le_reg_r with (10 ^ 9); [lra|]. rewrite Rmult_assoc, KK. lra. }
  assert (G := Hp i (S i) ltac:(lia)).
  assert (Val : forall j, (j <? length p)%nat = true -> (1 <= j)%nat ->
    (if (length p <=? j)%nat then Err IndexError
     else Ok ((1 - (if Rlt_dec (/ 10 ^ 12) (Rabs (at_ (scaled_z p) j - at_ (scaled_z p) (j - 1)))
                    then (z - at_ (scaled_z p) (j - 1)) / (at_ (scaled_z p) j - at_ (scaled_z p) (j - 1)) else 0))
              * at_ (scaled_abs k a) (j - 1) +
              (if Rlt_dec (/ 10 ^ 12) (Rabs (at_ (scaled_z p) j - at_ (scaled_z p) (j - 1)))
               then (z - at_ (scaled_z p) (j - 1)) / (at_ (scaled_z p) j - at_ (scaled_z p) (j - 1)) else 0)
              * at_ (scaled_abs k a) j))
    = Ok (k * 10 ^ 9 * (at_ a (j - 1) + (z * 10 ^ 9 - at_ p (j - 1)) / (at_ p j - at_ p (j - 1)) * (at_ a j - at_ a (j - 1))))).
  { intros j Hj H1. apply Nat.ltb_lt in Hj. destruct (Nat.leb_spec (length p) j); [lia|].
    destruct (Rlt_dec _ _) as [_|F]; [|exfalso; apply F, gap; [exact Hp|lia]].
    f_equal. rewrite !scaled_abs_at, !scaled_z_at.
    assert (Gj := Hp (j - 1)%nat j ltac:(lia)).
    set (x := at_ p (j - 1)) in *. set (y := at_ p j) in *. clearbody x y.
    replace ((z - x * / 10 ^ 9) / (y * / 10 ^ 9 - x * / 10 ^ 9)) with ((z * 10 ^ 9 - x) / (y - x)) by (field; lra).
    ring. }
  destruct (Rle_lt_or_eq_dec _ _ Lo) as [Lt|Eq].
  - assert (Eq_ : q = S i).
    { destruct (Nat.lt_trichotomy q (S i)) as [H|[H|H]]; [|exact H|].
      - specialize (S3 i ltac:(lia)). lra.
      - specialize (S2 (S i) H). lra. }
    rewrite Eq_. destruct (Nat.leb_spec (S i) (length p - 1)); [|lia].
    destruct (Nat.ltb_spec 0 (S i)); [|lia].
    rewrite Val by (first [lia | apply Nat.ltb_lt; lia]). replace (S i - 1)%nat with i by lia. reflexivity.
  - assert (Ez : z * 10 ^ 9 = at_ p i).
    { rewrite <- Eq, scaled_z_at. rewrite Rmult_assoc, KK. ring. }
    assert (Eq_ : q = i).
    { destruct (Nat.lt_trichotomy q i) as [H|[H|H]]; [|exact H|].
      - specialize (S3 q ltac:(lia)). specialize (Inc q i ltac:(rewrite L; lia)). lra.
      - specialize (S2 i H). lra. }
    rewrite Eq_. destruct (Nat.leb_spec i (length p - 1)); [|lia].
    destruct i as [|i].
    + cbn [Nat.ltb Nat.leb]. rewrite Val by (first [lia | apply Nat.ltb_lt; lia]). replace (1 - 1)%nat with 0%nat by lia. reflexivity.
    + destruct (Nat.ltb_spec 0 (S i)); [|lia].
      rewrite Val by (first [lia | apply Nat.ltb_lt; lia]). replace (S i - 1)%nat with i by lia.
      f_equal. f_equal. rewrite Ez. assert (G' := Hp i (S i) ltac:(lia)). field. lra.
Qed.
(** No negative absorption inside the grid. *)
Theorem C148_nonneg : forall initial p a z i, spaced p -> length a = length p -> (S i < length p)%nat ->
  at_ p i <= z * 10 ^ 9 <= at_ p (S i) -> 0 <= initial -> Forall (fun x => 0 <= x) a ->
  exists v, diff_absorption initial p a z = Ok v /\ 0 <= v.
Proof.
  intros k p a z i Hp La Hi Hz Hk Fa. eexists. split; [apply (C148_between k p a z i); assumption|].
  assert (A1 : 0 <= at_ a i) by (apply (proj1 (Forall_forall _ _) Fa), nth_In; lia).
  assert (A2 : 0 <= at_ a (S i)) by (apply (proj1 (Forall_forall _ _) Fa), nth_In; lia).
  assert (G := Hp i (S i) ltac:(lia)).
  apply Rmult_le_pos; [apply Rmult_le_pos; lra|].
  assert (F1 : 0 <= (z * 10 ^ 9 - at_ p i) / (at_ p (S i) - at_ p i) <= 1).
  { split.
    - apply Rmult_le_pos; [lra|]. left. apply Rinv_0_lt_compat. lra.
    - apply Rmult_le_reg_r with (at_ p (S i) - at_ p i); [lra|]. unfold Rdiv. rewrite Rmult_assoc, Rinv_l by lra. lra. }
  set (f := (z * 10 ^ 9 - at_ p i) / (at_ p (S i) - at_ p i)) in *. clearbody f. nra.
Qed.
(** The second value returned is the trapezoidal integral of the profile over depth, scaled with
    the light that is not in the shade. *)
Lemma diff_nodes initial p a : spaced p -> length a = length p -> length p <> 1%nat ->
  mapRR (diff_absorption initial p a) (scaled_z p) = Ok (map (fun x => initial * 10 ^ 9 * x) a).
Proof.
  intros Hp La L1.
  assert (KK : / 10 ^ 9 * 10 ^ 9 = 1) by field.
  assert (G : forall i, (i < length p)%nat ->
    diff_absorption initial p a (at_ (scaled_z p) i) = Ok (initial * 10 ^ 9 * at_ a i)).
  { intros i Hi. rewrite scaled_z_at. destruct i as [|i].
    - rewrite (C148_between initial p a _ 0 Hp La); [|lia|].
      + f_equal. f_equal. rewrite Rmult_assoc, KK. assert (Q := Hp 0%nat 1%nat ltac:(lia)). field. lra.
      + assert (Q := Hp 0%nat 1%nat ltac:(lia)). rewrite Rmult_assoc, KK. lra.
    - rewrite (C148_between initial p a _ i Hp La); [|lia|].
      + f_equal. f_equal. rewrite Rmult_assoc, KK. assert (Q := Hp i (S i) ltac:(lia)). field. lra.
      + assert (Q := Hp i (S i) ltac:(lia)). rewrite Rmult_assoc, KK. lra. }
  assert (M : forall (l : list R) (b : list R) off, length b = length l ->
    (forall i, (i < length l)%nat -> diff_absorption initial p a (at_ l i) = Ok (initial * 10 ^ 9 * at_ b i)) ->
    off = 0%nat -> mapRR (diff_absorption initial p a) l = Ok (map (fun x => initial * 10 ^ 9 * x) b)).
  { induction l as [|x l IH]; intros b off Lb H _; destruct b as [|y b]; try discriminate; [reflexivity|].
    cbn [mapRR map]. assert (H0 := H 0%nat ltac:(cbn; lia)). cbn [nth] in H0. rewrite H0. cbn [bindR].
    rewrite (IH b 0%nat); [reflexivity|cbn in Lb; lia| |reflexivity].
    intros i Hi. exact (H (S i) ltac:(cbn; lia)). }
  apply (M (scaled_z p) a 0%nat); [unfold scaled_z; now rewrite map_length| |reflexivity].
  intros i Hi. apply G. unfold scaled_z in Hi. now rewrite map_length in Hi.
Qed.
Lemma trapz_scale_x k : forall y x, np_trapz y (map (fun v => v * k) x) = k * np_trapz y x.
Proof.
  induction y as [|y0 [|y1 y] IH]; intros [|x0 [|x1 x]]; try (simpl; ring).
  specialize (IH (x1 :: x)). cbn [map] in *. rewrite !np_trapz_cons, IH. field.
Qed.
Theorem C148_integral : forall initial p a, spaced p -> length a = length p -> length p <> 1%nat ->
  calculate_absorption_tmm initial p a = Ok (initial * np_trapz a p).
Proof.
  intros k p a Hp La L1. unfold calculate_absorption_tmm. rewrite (diff_nodes k p a Hp La L1). cbn [bindR]. f_equal.
  unfold scaled_z. rewrite trapz_scale_x. change (fun x : R => k * 10 ^ 9 * x) with (Rmult (k * 10 ^ 9)).
  rewrite np_trapz_scale. field.
Qed.
(** An element sees the profile shifted by its offset, and nothing beyond its own width. *)
Theorem C148_element : forall initial p a offset width z v,
  diff_absorption initial p a (offset + z) = Ok v ->
  (z < width -> absorbed initial p a offset width z = Ok v) /\
  (width <= z -> absorbed initial p a offset width z = Ok 0).
Proof.
  intros k p a off w z v E. unfold absorbed. rewrite E. cbn [bindR]. split; intros H; destruct (Rlt_dec z w); try lra; f_equal; ring.
Qed.
(** A single position inside the structure makes the whole calculation fail. *)
Theorem C148_single_refuted : forall initial p a, calculate_absorption_tmm initial [p] [a] = Err IndexError.
Proof.
  intros k p a. unfold calculate_absorption_tmm. cbn [scaled_z map mapRR].
  assert (E : forall z, diff_absorption k [p] [a] z = Err IndexError).
  { intros z. unfold diff_absorption. cbv zeta. cbn [scaled_z map length Nat.sub].
    destruct (searchsorted _ z) as [|q]; reflexivity. }
  rewrite E. reflexivity.
Qed.
(** Less than one step beyond the last point of the grid the profile is continued in a straight
    line, and can be negative although every given value is positive. *)
Theorem C148_beyond_refuted : exists p a z v, spaced p /\ Forall (fun x => 0 < x) a /\ length a = length p /\
  diff_absorption 1 p a z = Ok v /\
  (exists h, Forall (fun x => x + h <> x) p /\ at_ p 1 - at_ p 0 = h /\ last p 0 < z * 10 ^ 9 < last p 0 + h) /\ v < 0.
Proof.
  exists [0; 10], [3; 1], (19 / 10 ^ 9), (- (8 / 10) * 10 ^ 9). split.
  { intros i j Hij. destruct i as [|i]; destruct j as [|[|j]]; cbn [length] in Hij; try lia. cbn. lra. }
  split; [repeat apply Forall_cons; try lra; constructor|]. split; [reflexivity|]. split.
  - unfold diff_absorption. cbv zeta. unfold scaled_z, scaled_abs. cbn [map length Nat.sub searchsorted].
    destruct (Rlt_dec (0 * / 10 ^ 9) (19 / 10 ^ 9)) as [_|F]; [|exfalso; apply F; lra].
    destruct (Rlt_dec (10 * / 10 ^ 9) (19 / 10 ^ 9)) as [_|F]; [|exfalso; apply F; lra].
    cbn [Nat.leb Nat.ltb Nat.sub nth].
    destruct (Rlt_dec _ _) as [_|F].
    + f_equal. field.
    + exfalso. apply F. rewrite Rabs_pos_eq by lra. lra.
  - split; [|lra]. exists 10. split; [repeat apply Forall_cons; try lra; constructor|]. cbn. lra.
Qed.
Example C148_example : spaced [0; 10; 30] /\ length [3; 2; 1] = length [0; 10; 30] /\
  at_ [0; 10; 30] 1 <= (15 / 10 ^ 9) * 10 ^ 9 <= at_ [0; 10; 30] 2.
Proof.
  split; [|split; [reflexivity|cbn [nth]; lra]].
  intros i j Hij. destruct i as [|[|[|i]]]; destruct j as [|[|[|j]]]; cbn [length] in Hij; try lia; cbn [nth]; lra.
Qed.

(** Property C58: smoothing keeps the length and constants. *)
From Coq Require Import Reals String List Bool ZArith Lra Lia.
From Verif Require Import Common InterpModel StructModel SmoothModel.
From Coq Require Import List.
Import ListNotations.
Open Scope string_scope.
Open Scope R_scope.
Open Scope list_scope.

(** The mean of [w] consecutive values of [f] starting at the integer [a]. *)
Fixpoint total (f : Z -> R) (a : Z) (w : nat) : R :=
  match w with O => 0 | S w' => f a + total f (a + 1)%Z w' end.
Definition mean (f : Z -> R) (a : Z) (w : nat) : R := total f a w / INR w.

(** The signal continued by point reflection in its first and last values: index
    -1 is the mirror image of 0, index n that of n - 1. *)
Definition continued (x : list R) (j : Z) : R :=
  let n := Z.of_nat (length x) in
  if (j <? 0)%Z then 2 * nth 0 x 0 - nth (Z.to_nat (- 1 - j)) x 0
  else if (j <? n)%Z then nth (Z.to_nat j) x 0
  else 2 * nth (length x - 1) x 0 - nth (Z.to_nat (2 * n - 1 - j)) x 0.

Lemma sumR_acc l : forall a, fold_left Rplus l a = a + fold_left Rplus l 0.
Proof.
  induction l as [|x l IH]; intros a; simpl; [lra|]. rewrite (IH (a + x)), (IH (0 + x)). lra.
Qed.
Lemma sumR_cons x l : sumR (x :: l) = x + sumR l.
Proof. unfold sumR. simpl. rewrite sumR_acc. lra. Qed.
Lemma sumR_app l l' : sumR (l ++ l') = sumR l + sumR l'.
Proof. induction l as [|x l IH]; simpl; [unfold sumR at 2; simpl; lra|]. rewrite !sumR_cons, IH. lra. Qed.

Lemma total_snoc f : forall w a, total f a (S w) = total f a w + f (a + Z.of_nat w)%Z.
Proof.
  induction w as [|w IH]; intros a.
  - simpl. replace (a + 0)%Z with a by lia. lra.
  - change (total f a (S (S w))) with (f a + total f (a + 1)%Z (S w)). rewrite IH. simpl.
    replace (a + 1 + Z.of_nat w)%Z with (a + Z.pos (Pos.of_succ_nat w))%Z by lia. lra.
Qed.
Lemma total_rev f c : forall w, sumR (map (fun k => f (c - Z.of_nat k)%Z) (seq 0 w)) = total f (c - Z.of_nat w + 1)%Z w.
Proof.
  induction w as [|w IH]; [reflexivity|].
  rewrite seq_S, map_app, sumR_app, IH. simpl map. rewrite sumR_cons.
  change (sumR []) with 0. cbn [total].
  replace (c - Z.of_nat (S w) + 1 + 1)%Z with (c - Z.of_nat w + 1)%Z by lia.
  replace (c - Z.of_nat (S w) + 1)%Z with (c - Z.of_nat w)%Z by lia. lra.
Qed.
Lemma total_mult f k : forall w a, total (fun j => k * f j) a w = k * total f a w.
Proof. induction w as [|w IH]; intros a; simpl; [lra|]. rewrite IH. lra. Qed.
Lemma total_ext f g : forall w a, (forall j, (a <= j < a + Z.of_nat w)%Z -> f j = g j) -> total f a w = total g a w.
Proof.
  induction w as [|w IH]; intros a H; simpl; [reflexivity|]. rewrite (H a) by lia. f_equal. apply IH. intros j Hj. apply H. lia.
Qed.
Lemma total_bounds f lo hi : forall w a, (forall j, (a <= j < a + Z.of_nat w)%Z -> lo <= f j <= hi) ->
  INR w * lo <= total f a w <= INR w * hi.
Proof.
  induction w as [|w IH]; intros a H; [simpl; lra|]. rewrite S_INR. simpl.
  pose proof (H a ltac:(lia)). assert (INR w * lo <= total f (a + 1) w <= INR w * hi) by (apply IH; intros; apply H; lia). lra.
Qed.
Lemma mean_bounds f lo hi w a : (0 < w)%nat -> (forall j, (a <= j < a + Z.of_nat w)%Z -> lo <= f j <= hi) ->
  lo <= mean f a w <= hi.
Proof.
  intros Hw H. apply total_bounds in H. unfold mean. assert (0 < INR w) by now apply lt_0_INR.
  split; apply Rmult_le_reg_r with (INR w); try assumption; unfold Rdiv; rewrite Rmult_assoc, Rinv_l by lra; lra.
Qed.

Lemma total_app f : forall u v a, total f a (u + v) = total f a u + total f (a + Z.of_nat u)%Z v.
Proof.
  induction u as [|u IH]; intros v a; cbn [total plus].
  - replace (a + Z.of_nat 0)%Z with a by lia. lra.
  - rewrite IH. replace (a + 1 + Z.of_nat u)%Z with (a + Z.of_nat (S u))%Z by lia. lra.
Qed.
Lemma total_reflect g c s : forall w a,
  total (fun j => c - g (s - j)%Z) a w = INR w * c - total g (s - a - Z.of_nat w + 1)%Z w.
Proof.
  induction w as [|w IH]; intros a; [simpl; lra|].
  rewrite total_snoc. cbn [total]. rewrite IH.
  replace (s - a - Z.of_nat (S w) + 1 + 1)%Z with (s - a - Z.of_nat w + 1)%Z by lia.
  replace (s - a - Z.of_nat (S w) + 1)%Z with (s - (a + Z.of_nat w))%Z by lia.
  rewrite S_INR. lra.
Qed.

(** A window hanging over one end by at most half its length is a weighted mean of data. *)
Lemma continued_bounds x lo hi a w :
  (forall j, (j < length x)%nat -> lo <= nth j x 0 <= hi) -> (0 < length x)%nat ->
  (0 < w <= length x)%nat -> (- (Z.of_nat w) <= 2 * a)%Z -> (2 * a + Z.of_nat w <= 2 * Z.of_nat (length x))%Z ->
  lo <= mean (continued x) a w <= hi.
Proof.
  intros Hd Hn Hw Ha Hb. assert (Hw' : 0 < INR w) by (apply lt_0_INR; lia).
  set (n := length x) in *.
  assert (In_ : forall j, (0 <= j < Z.of_nat n)%Z -> lo <= continued x j <= hi).
  { intros j Hj. unfold continued. fold n. destruct (Z.ltb_spec j 0); [lia|].
    destruct (Z.ltb_spec j (Z.of_nat n)); [apply Hd; lia|lia]. }
  assert (T : INR w * lo <= total (continued x) a w <= INR w * hi).
  { destruct (Z.lt_ge_cases a 0) as [Hneg|Hpos].
    - assert (D : exists d, (0 < d)%nat /\ (2 * d <= w)%nat /\ a = (- Z.of_nat d)%Z) by (exists (Z.to_nat (- a)); lia).
      destruct D as (d & D1 & D2 & ->). replace w with (d + (d + (w - 2 * d)))%nat at 2 3 by lia.
      rewrite !total_app.
      rewrite (total_ext (continued x) (fun j => 2 * nth 0 x 0 - continued x (-1 - j))%R d).
      2:{ intros j Hj. unfold continued at 1. destruct (Z.ltb_spec j 0); [|lia]. f_equal. unfold continued.
          destruct (Z.ltb_spec (-1 - j) 0); [lia|]. fold n. destruct (Z.ltb_spec (-1 - j) (Z.of_nat n)); [|lia]. reflexivity. }
      rewrite total_reflect. replace (-1 - - Z.of_nat d - Z.of_nat d + 1)%Z with 0%Z by lia.
      replace (- Z.of_nat d + Z.of_nat d)%Z with 0%Z by lia.
      assert (B : INR (w - 2 * d) * lo <= total (continued x) (0 + Z.of_nat d) (w - 2 * d) <= INR (w - 2 * d) * hi)
        by (apply total_bounds; intros j Hj; apply In_; lia).
      pose proof (Hd 0%nat Hn). rewrite minus_INR in B by lia. rewrite mult_INR in B. simpl (INR 2) in B.
      assert (0 < INR d) by (apply lt_0_INR; lia). nra.
    - destruct (Z.le_gt_cases (a + Z.of_nat w) (Z.of_nat n)) as [Hin|Hout].
      + apply total_bounds. intros j Hj. apply In_. lia.
      + set (r := Z.to_nat (a + Z.of_nat w - Z.of_nat n)).
        assert (D : (0 < r)%nat /\ (2 * r <= w)%nat /\ (a + Z.of_nat w = Z.of_nat n + Z.of_nat r)%Z) by (unfold r; lia).
        destruct D as (D1 & D2 & D3). replace w with ((w - 2 * r) + (r + r))%nat at 2 3 by lia.
        rewrite !total_app.
        replace (a + Z.of_nat (w - 2 * r))%Z with (Z.of_nat n - Z.of_nat r)%Z by lia.
        replace (Z.of_nat n - Z.of_nat r + Z.of_nat r)%Z with (Z.of_nat n) by lia.
        rewrite (total_ext (continued x) (fun j => 2 * nth (n - 1) x 0 - continued x (2 * Z.of_nat n - 1 - j))%R r (Z.of_nat n)).
        2:{ intros j Hj. unfold continued at 1. fold n. destruct (Z.ltb_spec j 0); [lia|].
            destruct (Z.ltb_spec j (Z.of_nat n)); [lia|]. f_equal. unfold continued. fold n.
            destruct (Z.ltb_spec (2 * Z.of_nat n - 1 - j) 0); [lia|].
            destruct (Z.ltb_spec (2 * Z.of_nat n - 1 - j) (Z.of_nat n)); [reflexivity|lia]. }
        rewrite total_reflect. replace (2 * Z.of_nat n - 1 - Z.of_nat n - Z.of_nat r + 1)%Z with (Z.of_nat n - Z.of_nat r)%Z by lia.
        assert (B : INR (w - 2 * r) * lo <= total (continued x) a (w - 2 * r) <= INR (w - 2 * r) * hi)
          by (apply total_bounds; intros j Hj; apply In_; lia).
        pose proof (Hd (n - 1)%nat ltac:(lia)). rewrite minus_INR in B by lia. rewrite mult_INR in B. simpl (INR 2) in B.
        assert (0 < INR r) by (apply lt_0_INR; lia). nra. }
  unfold mean. split; apply Rmult_le_reg_r with (INR w); try assumption; unfold Rdiv; rewrite Rmult_assoc, Rinv_l by lra; lra.
Qed.

Lemma padded_length x w : (1 <= w <= length x)%nat -> length (padded x w) = (2 * w - 1 + length x)%nat.
Proof. intros H. unfold padded. rewrite !app_length, !map_length, !rev_length, firstn_length, skipn_length. lia. Qed.
Lemma nth_rev_lt l j : (j < length l)%nat -> nth j (rev l) 0 = nth (length l - 1 - j) l 0.
Proof. intros H. rewrite rev_nth by assumption. f_equal. lia. Qed.
Lemma nth_firstn_lt (l : list R) : forall w j, (j < w)%nat -> nth j (firstn w l) 0 = nth j l 0.
Proof.
  induction l as [|x l IH]; intros w j H; [now rewrite firstn_nil|].
  destruct w; [lia|]. destruct j; [reflexivity|]. simpl. apply IH. lia.
Qed.
Lemma nth_skipn_add (l : list R) : forall k j, nth j (skipn k l) 0 = nth (k + j) l 0.
Proof. induction l as [|x l IH]; intros [|k] j; simpl; try reflexivity; [now destruct j|]. apply IH. Qed.
Lemma nth_map_0 (f : R -> R) l j : (j < length l)%nat -> nth j (map f l) 0 = f (nth j l 0).
Proof. intros H. rewrite (nth_indep _ 0 (f 0)) by now rewrite map_length. apply map_nth. Qed.

Lemma padded_nth x w j : (1 <= w <= length x)%nat -> (j < 2 * w - 1 + length x)%nat ->
  at_ (padded x w) j = continued x (Z.of_nat j - Z.of_nat w).
Proof.
  intros Hw Hj. unfold padded, continued. set (n := length x) in *.
  assert (L1 : length (rev (firstn w x)) = w) by (rewrite rev_length, firstn_length; fold n; lia).
  assert (L3 : length (rev (skipn (n - (w - 1)) x)) = (w - 1)%nat) by (rewrite rev_length, skipn_length; fold n; lia).
  destruct (Z.ltb_spec (Z.of_nat j - Z.of_nat w) 0) as [H|H].
  - rewrite app_nth1 by (rewrite map_length, L1; lia). rewrite nth_map_0 by (rewrite L1; lia). f_equal.
    rewrite rev_length in L1. rewrite nth_rev_lt by lia. rewrite L1, nth_firstn_lt by lia. f_equal. lia.
  - rewrite app_nth2 by (rewrite map_length, L1; lia). rewrite map_length, L1.
    destruct (Z.ltb_spec (Z.of_nat j - Z.of_nat w) (Z.of_nat n)) as [H'|H'].
    + rewrite app_nth1 by (fold n; lia). f_equal. lia.
    + rewrite app_nth2 by (fold n; lia). fold n. rewrite nth_map_0 by (rewrite L3; lia). f_equal.
      rewrite rev_length in L3. rewrite nth_rev_lt by lia. rewrite L3, nth_skipn_add. f_equal. lia.
Qed.

(** What a flat window returns, point by point. *)
Lemma smooth_flat x z blurmode :
  (3 <= z)%Z -> (z <= Z.of_nat (length x))%Z -> blurmode <> "right" -> blurmode <> "left" ->
  smooth x (WInt z) "flat" blurmode =
  Ok (map (fun i => mean (continued x) (Z.of_nat i + (z - 1) / 2 - z + 1)%Z (Z.to_nat z)) (seq 0 (length x))).
Proof.
  intros Hz Hl Hr Hlft. unfold smooth, wval. rewrite INR_IZR_INZ.
  destruct (Rlt_dec (IZR (Z.of_nat (length x))) (IZR z)) as [H|_]; [apply lt_IZR in H; lia|].
  destruct (Rlt_dec (IZR z) 3) as [H|_]; [apply lt_IZR in H; lia|]. simpl.
  rewrite (proj2 (String.eqb_neq blurmode "right") Hr), (proj2 (String.eqb_neq blurmode "left") Hlft). simpl.
  f_equal. set (w := Z.to_nat z). assert (Hw : (3 <= w <= length x)%nat) by (unfold w; lia).
  rewrite padded_length by lia. replace (2 * w - 1 + length x - (w - 1) - w)%nat with (length x) by lia.
  apply map_ext_in. intros i Hi. apply in_seq in Hi.
  set (off := ((w - 1) / 2)%nat). assert (Hoff : (off <= (w - 1))%nat) by (unfold off; apply Nat.div_le_upper_bound; lia).
  assert (E : ((z - 1) / 2)%Z = Z.of_nat off).
  { unfold off. rewrite Nat2Z.inj_div. f_equal. unfold w. lia. }
  assert (O2 : (off + off <= w - 1)%nat) by (unfold off; pose proof (Nat.mul_div_le (w - 1) 2 ltac:(lia)); lia).
  assert (O3 : (w - 1 <= off + off + 1)%nat) by (unfold off; pose proof (Nat.mul_succ_div_gt (w - 1) 2 ltac:(lia)); lia).
  unfold conv_same. fold off. unfold mean.
  transitivity (sumR (map (fun k => / INR w * continued x (Z.of_nat i + Z.of_nat off - Z.of_nat k)) (seq 0 w))).
  { f_equal. apply map_ext_in. intros k Hk. apply in_seq in Hk.
    destruct (Nat.leb_spec k (i + w + off)); [|lia].
    rewrite padded_nth by lia. do 2 f_equal. lia. }
  rewrite (total_rev (fun j => / INR w * continued x j)).
  rewrite total_mult. rewrite E. unfold Rdiv. rewrite Rmult_comm. f_equal. f_equal. unfold w. lia.
Qed.

(** C58, as stated: for every signal and every valid window the result has the length
    of the input; the flat window maps constants to themselves and stays within the
    range of the data.  Missing here: the windows other than flat (they raise, see
    below).  Proved: with the flat window every point is the mean of the w values
    around it of the continued signal, the length is kept, constants are kept, and
    every point stays within the range of the data, also at the ends. *)
Theorem C58_smooth_partial :
  forall x z blurmode,
    (z <= Z.of_nat (length x))%Z -> blurmode <> "right" -> blurmode <> "left" ->
    exists y, smooth x (WInt z) "flat" blurmode = Ok y /\ length y = length x /\
      (forall v, (forall i, (i < length x)%nat -> nth i x 0 = v) -> forall i, (i < length x)%nat -> nth i y 0 = v) /\
      (forall lo hi i, (forall j, (j < length x)%nat -> lo <= nth j x 0 <= hi) ->
         (i < length x)%nat -> lo <= nth i y 0 <= hi) /\
      (forall i, (3 <= z)%Z -> (i < length x)%nat ->
         nth i y 0 = mean (continued x) (Z.of_nat i - z / 2)%Z (Z.to_nat z)).
Proof.
  intros x z bm Hl Hr Hlft.
  destruct (Z.lt_ge_cases z 3) as [Hz|Hz].
  - exists x. unfold smooth, wval. rewrite INR_IZR_INZ.
    destruct (Rlt_dec (IZR (Z.of_nat (length x))) (IZR z)) as [H|_]; [apply lt_IZR in H; lia|].
    destruct (Rlt_dec (IZR z) 3) as [_|H]; [|exfalso; apply H; now apply IZR_lt].
    split; [reflexivity|]. split; [reflexivity|]. split; [auto|]. split; [intros lo hi i H Hi; now apply H|lia].
  - rewrite smooth_flat by assumption. eexists. split; [reflexivity|].
    split; [now rewrite map_length, seq_length|].
    assert (Off : forall i, (Z.of_nat i + (z - 1) / 2 - z + 1 = Z.of_nat i - z / 2)%Z).
    { intros i. pose proof (Z.div_mod z 2 ltac:(lia)). pose proof (Z.div_mod (z - 1) 2 ltac:(lia)).
      pose proof (Z.mod_pos_bound z 2 ltac:(lia)). pose proof (Z.mod_pos_bound (z - 1) 2 ltac:(lia)). lia. }
    assert (N : forall i, (i < length x)%nat ->
      nth i (map (fun i => mean (continued x) (Z.of_nat i + (z - 1) / 2 - z + 1)%Z (Z.to_nat z)) (seq 0 (length x))) 0 =
      mean (continued x) (Z.of_nat i - z / 2)%Z (Z.to_nat z)).
    { intros i Hi. set (g := fun i => mean (continued x) (Z.of_nat i + (z - 1) / 2 - z + 1)%Z (Z.to_nat z)).
      rewrite (nth_indep (map g (seq 0 (length x))) 0 (g 0%nat)) by now rewrite map_length, seq_length.
      rewrite (map_nth g), seq_nth by assumption. unfold g. simpl plus. now rewrite Off. }
    assert (Z2 : (z / 2 + z / 2 <= z)%Z /\ (z <= z / 2 + z / 2 + 1)%Z).
    { pose proof (Z.div_mod z 2 ltac:(lia)). pose proof (Z.mod_pos_bound z 2 ltac:(lia)). lia. }
    split; [|split].
    + intros v Hv i Hi. rewrite N by assumption. apply Rle_antisym; apply mean_bounds with (lo := v) (hi := v); try lia.
      all: intros j Hj; unfold continued.
      all: destruct (Z.ltb_spec j 0); [rewrite !Hv by lia; lra|].
      all: destruct (Z.ltb_spec j (Z.of_nat (length x))); [rewrite Hv by lia; lra|].
      all: rewrite !Hv by lia; lra.
    + intros lo hi i Hd Hi. rewrite N by assumption. apply continued_bounds; [assumption|lia..].
    + intros i _ Hi. now apply N.
Qed.
Print Assumptions C58_smooth_partial.

Example C58_case :
  exists y, smooth [1; 2; 4; 2; 1] (WInt 3) "flat" "even" = Ok y /\ nth 2 y 0 = 8 / 3 /\ nth 0 y 0 = 4 / 3.
Proof.
  rewrite smooth_flat; [|lia|simpl; lia|discriminate|discriminate]. eexists. split; [reflexivity|].
  cbn. change (Pos.to_nat 3) with 3%nat. unfold mean, total, continued. cbn. unfold Pos.to_nat. simpl. lra.
Qed.

(** Every other window (the default one included) fails with NameError, and one-sided
    blurring fails with TypeError. *)
Theorem C58_windows_refuted :
  forall x z window blurmode, (3 <= z <= Z.of_nat (length x))%Z -> In window ["hanning"; "hamming"; "bartlett"; "blackman"] ->
    smooth x (WInt z) window blurmode = Err NameError /\
    (blurmode = "right" \/ blurmode = "left" -> smooth x (WInt z) "flat" blurmode = Err TypeError).
Proof.
  intros x z window bm [Hz Hl] Hw. unfold smooth, wval. rewrite INR_IZR_INZ.
  destruct (Rlt_dec (IZR (Z.of_nat (length x))) (IZR z)) as [H|_]; [apply lt_IZR in H; lia|].
  destruct (Rlt_dec (IZR z) 3) as [H|_]; [apply lt_IZR in H; lia|]. split.
  - simpl in Hw. repeat destruct Hw as [<-|Hw]; [reflexivity..|easy].
  - intros [-> | ->]; reflexivity.
Qed.
Print Assumptions C58_windows_refuted.
Example C58_windows_case : (3 <= 3 <= Z.of_nat (length [1; 2; 4]))%Z /\ In "hanning" ["hanning"; "hamming"; "bartlett"; "blackman"].
Proof. split; [simpl; lia|now left]. Qed.

(** A window longer than the signal is refused whatever the other arguments are, and
    every result has the length of the signal. *)
Theorem C58_short : forall x w window blurmode,
  (INR (length x) < wval w -> smooth x w window blurmode = Err ValueError) /\
  (forall y, smooth x w window blurmode = Ok y -> wval w <= INR (length x) /\ length y = length x).
Proof.
  intros x w window bm. unfold smooth at 1. destruct (Rlt_dec (INR (length x)) (wval w)) as [L|L].
  - split; [reflexivity|]. intros y. unfold smooth. destruct (Rlt_dec (INR (length x)) (wval w)); [discriminate|contradiction].
  - split; [intros; contradiction|]. intros y E. split; [lra|].
    destruct w as [z|r].
    + destruct (string_dec window "flat") as [->|N].
      * assert (B : bm <> "right" /\ bm <> "left" \/ y = x).
        { revert E. unfold smooth. destruct (Rlt_dec _ _); [discriminate|]. destruct (Rlt_dec _ 3); [intros [= <-]; now right|].
          cbn [existsb windows negb String.eqb orb]. simpl.
          destruct (String.eqb_spec bm "right"); [discriminate|]. destruct (String.eqb_spec bm "left"); [discriminate|]. left. split; assumption. }
        destruct B as [[B1 B2]| ->]; [|reflexivity].
        assert (Hz : (z <= Z.of_nat (length x))%Z) by (apply le_IZR; rewrite <- INR_IZR_INZ; cbn [wval] in L; lra).
        destruct (C58_smooth_partial x z bm Hz B1 B2) as (y' & E' & Hl & _). rewrite E in E'. injection E' as ->. exact Hl.
      * revert E. unfold smooth. destruct (Rlt_dec _ _); [discriminate|]. destruct (Rlt_dec _ 3); [now intros [= <-]|].
        destruct (negb (existsb _ _)); [discriminate|]. destruct (String.eqb_spec window "flat"); [contradiction|discriminate].
    + revert E. unfold smooth. destruct (Rlt_dec _ _); [discriminate|]. destruct (Rlt_dec _ 3); [now intros [= <-]|].
      destruct (negb (existsb _ _)); discriminate.
Qed.
Print Assumptions C58_short.
Example C58_short_case : INR (length [1; 2; 4]) < wval (WInt 5) /\ exists y, smooth [1; 2; 4; 2; 1] (WInt 3) "flat" "even" = Ok y.
Proof. split; [simpl; lra|]. destruct C58_case as (y & E & _). now exists y. Qed.

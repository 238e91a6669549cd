(** Properties C27, C28: interpolation. *)
From Coq Require Import Reals List Bool Arith Lia Lra Psatz.
From Verif Require Import Common InterpModel.
Import ListNotations.
Open Scope R_scope.
Open Scope list_scope.

(** * Specification *)

Definition increasing (l : list R) : Prop :=
  forall i j, (i < j < length l)%nat -> at_ l i < at_ l j.

(** * Lemmas on arrays *)

Lemma increasing_tail a l : increasing (a :: l) -> increasing l.
Proof. intros H i j Hij. apply (H (S i) (S j)). simpl. lia. Qed.
Lemma increasing_le l i j : increasing l -> (i <= j < length l)%nat -> at_ l i <= at_ l j.
Proof.
  intros H Hij. destruct (Nat.eq_dec i j) as [->|]; [lra|]. left. apply H. lia.
Qed.
Lemma increasing_inj l i j : increasing l -> (i < length l)%nat -> (j < length l)%nat ->
  at_ l i < at_ l j -> (i < j)%nat.
Proof.
  intros H Hi Hj Hlt. destruct (lt_dec i j); [assumption|].
  assert (at_ l j <= at_ l i) by (apply increasing_le; [assumption|lia]). lra.
Qed.

Lemma searchsorted_spec l v : increasing l ->
  (searchsorted l v <= length l)%nat /\
  (forall i, (i < searchsorted l v)%nat -> at_ l i < v) /\
  (forall i, (searchsorted l v <= i < length l)%nat -> v <= at_ l i).
Proof.
  induction l as [|a l IH]; intros H; simpl.
  - repeat split; intros; lia.
  - destruct (IH (increasing_tail _ _ H)) as (I1 & I2 & I3). destruct (Rlt_dec a v) as [Ha|Ha].
    + split; [lia|]. split.
      * intros [|i] Hi; [assumption|]. apply I2. lia.
      * intros [|i] Hi; [lia|]. apply I3. lia.
    + split; [lia|]. split; [intros; lia|]. intros [|i] Hi; [lra|].
      assert (at_ (a :: l) 0 < at_ (a :: l) (S i)) by (apply H; simpl; lia). simpl in *. lra.
Qed.

(** The interval used for a value in [x_i, x_{i+1}]. *)
Lemma call_linear_cell x y v i : increasing x -> (S i < length x)%nat ->
  at_ x i <= v <= at_ x (S i) ->
  call_linear x y v = at_ y i + (at_ y (S i) - at_ y i) * ((v - at_ x i) / (at_ x (S i) - at_ x i)).
Proof.
  intros Hx Hi Hv. destruct (searchsorted_spec x v Hx) as (S1 & S2 & S3).
  assert (Hlt : at_ x i < at_ x (S i)) by (apply Hx; lia).
  unfold call_linear. set (k := searchsorted x v) in *.
  assert (Hk1 : (k <= S i)%nat).
  { destruct (le_lt_dec k (S i)); [assumption|]. specialize (S2 (S i) ltac:(lia)). lra. }
  destruct (Req_dec v (at_ x i)) as [E|E].
  - (* at the left node: k <= i; the interval before it, except at the start *)
    assert (Hk2 : (k <= i)%nat).
    { destruct (le_lt_dec k i); [assumption|]. specialize (S2 i ltac:(lia)). lra. }
    assert (Hk3 : (i <= k)%nat).
    { destruct (le_lt_dec i k); [assumption|].
      specialize (S3 k ltac:(lia)). assert (at_ x k < at_ x i) by (apply Hx; lia). lra. }
    assert (k = i) as -> by lia.
    unfold clip. destruct i as [|i].
    + replace (Nat.min (Nat.max 0 1) (length x - 1)) with 1%nat by lia. simpl (1 - 1)%nat. rewrite E. field. lra.
    + replace (Nat.min (Nat.max (S i) 1) (length x - 1)) with (S i) by lia.
      replace (S i - 1)%nat with i by lia. rewrite E.
      assert (at_ x i < at_ x (S i)) by (apply Hx; lia). field. split; lra.
  - assert (Hk3 : (S i <= k)%nat).
    { destruct (le_lt_dec (S i) k); [assumption|].
      specialize (S3 i ltac:(lia)). lra. }
    assert (k = S i) as -> by lia. unfold clip.
    replace (Nat.min (Nat.max (S i) 1) (length x - 1)) with (S i) by lia.
    replace (S i - 1)%nat with i by lia. field. lra.
Qed.

(** In range every value lies in an interval. *)
Lemma cell_exists x v : (2 <= length x)%nat -> increasing x ->
  at_ x 0 <= v <= at_ x (length x - 1) ->
  exists i, (S i < length x)%nat /\ at_ x i <= v <= at_ x (S i).
Proof.
  intros Hl Hx Hv. destruct (searchsorted_spec x v Hx) as (S1 & S2 & S3).
  destruct (Nat.eq_dec (searchsorted x v) 0) as [E|E].
  - exists 0%nat. split; [lia|]. split; [lra|]. apply S3. lia.
  - exists (searchsorted x v - 1)%nat.
    assert (Hk : (searchsorted x v < length x)%nat).
    { destruct (le_lt_dec (length x) (searchsorted x v)); [|assumption].
      specialize (S2 (length x - 1)%nat ltac:(lia)). lra. }
    replace (S (searchsorted x v - 1)) with (searchsorted x v) by lia.
    split; [lia|]. split; [left; apply S2; lia|]. apply S3. lia.
Qed.

Lemma interp1d_inv x y k be fill t : interp1d x y k be fill = Ok t ->
  t = {| t_x := x; t_y := y; t_kind := k; t_bounds_error := be; t_fill := fill |} /\
  length x = length y /\ (2 <= length x)%nat.
Proof.
  unfold interp1d. destruct (Nat.eqb_spec (length x) (length y)); [|discriminate]. simpl.
  destruct (Nat.ltb_spec (length x) 2); [discriminate|]. intros [= <-]. auto.
Qed.

Lemma call_in_range t vs : 
  (forall v, In v vs -> at_ (t_x t) 0 <= v <= at_ (t_x t) (length (t_x t) - 1)) ->
  call t vs = Ok (map (fun v => Some (match t_kind t with
                    | Linear => call_linear (t_x t) (t_y t) v
                    | Nearest => call_nearest (t_x t) (t_y t) v end)) vs).
Proof.
  intros H. unfold call.
  assert (Hb : forall v, In v vs -> below t v = false /\ above t v = false).
  { intros v Hv. specialize (H v Hv). unfold below, above.
    destruct (Rlt_dec v (at_ (t_x t) 0)); [lra|].
    destruct (Rlt_dec (at_ (t_x t) (length (t_x t) - 1)) v); [lra|]. auto. }
  assert (existsb (below t) vs = false) as ->.
  { apply not_true_is_false. intros E. apply existsb_exists in E as (v & Hv & E). destruct (Hb v Hv). congruence. }
  assert (existsb (above t) vs = false) as ->.
  { apply not_true_is_false. intros E. apply existsb_exists in E as (v & Hv & E). destruct (Hb v Hv). congruence. }
  rewrite andb_false_r. f_equal. apply map_ext_in. intros v Hv. destruct (Hb v Hv) as [-> ->]. reflexivity.
Qed.

(** * C27 *)

(** For every strictly increasing table and every array of queries in range: the
    call succeeds, and each answer is the chord through the two neighbouring
    points: the tabulated value at nodes, between neighbours inside, exact on
    affine data. *)
Theorem C27_linear_in_range :
  forall x y be fill t vs,
    increasing x -> interp1d x y Linear be fill = Ok t ->
    (forall v, In v vs -> at_ x 0 <= v <= at_ x (length x - 1)) ->
    exists rs, call t vs = Ok (map Some rs) /\ length rs = length vs /\
    forall j, (j < length vs)%nat ->
      let v := at_ vs j in let r := at_ rs j in
      (forall i, (i < length x)%nat -> v = at_ x i -> r = at_ y i) /\
      (forall i, (S i < length x)%nat -> at_ x i <= v <= at_ x (S i) ->
         Rmin (at_ y i) (at_ y (S i)) <= r <= Rmax (at_ y i) (at_ y (S i)) /\
         (r - at_ y i) * (at_ x (S i) - at_ x i) = (v - at_ x i) * (at_ y (S i) - at_ y i)) /\
      (forall a b, (forall i, (i < length x)%nat -> at_ y i = a * at_ x i + b) -> r = a * v + b).
Proof.
  intros x y be fill t vs Hx Ht Hr. apply interp1d_inv in Ht as (-> & Hxy & Hl).
  exists (map (call_linear x y) vs). rewrite call_in_range by exact Hr. cbn [t_kind t_x t_y].
  split; [now rewrite map_map|]. split; [apply map_length|].
  intros j Hj. set (v := nth j vs 0). set (r := nth j (map (call_linear x y) vs) 0).
  assert (Hr' : r = call_linear x y v).
  { unfold r, v. rewrite (nth_indep _ _ (call_linear x y 0)) by now rewrite map_length. apply map_nth. }
  assert (Hcell : forall i, (S i < length x)%nat -> at_ x i <= v <= at_ x (S i) ->
     Rmin (at_ y i) (at_ y (S i)) <= r <= Rmax (at_ y i) (at_ y (S i)) /\
         (r - at_ y i) * (at_ x (S i) - at_ x i) = (v - at_ x i) * (at_ y (S i) - at_ y i)).
  { intros i Hi Hv. rewrite Hr', (call_linear_cell _ _ _ _ Hx Hi Hv).
    assert (Hlt : at_ x i < at_ x (S i)) by (apply Hx; lia).
    set (q := (v - at_ x i) / (at_ x (S i) - at_ x i)).
    assert (Hq : q * (at_ x (S i) - at_ x i) = v - at_ x i) by (unfold q; field; lra).
    assert (0 <= q <= 1).
    { split.
      - apply Rmult_le_pos; [lra|]. left. apply Rinv_0_lt_compat. lra.
      - apply (Rmult_le_reg_r (at_ x (S i) - at_ x i)); lra. }
    split; [|rewrite <- Hq; ring].
    unfold Rmin, Rmax. destruct (Rle_dec (at_ y i) (at_ y (S i))); nra. }
  assert (Hin : at_ x 0 <= v <= at_ x (length x - 1)) by (apply Hr, nth_In, Hj).
  split; [|split; [exact Hcell|]].
  - intros i Hi E. destruct (le_lt_dec (length x) (S i)) as [Hlast|Hlast].
    + (* last node *)
      destruct i as [|i]; [lia|].
      assert (Hlt : at_ x i < at_ x (S i)) by (apply Hx; lia).
      destruct (Hcell i ltac:(lia) ltac:(lra)) as [_ H]. rewrite E in H.
      assert ((r - at_ y (S i)) * (at_ x (S i) - at_ x i) = 0) by lra.
      apply Rmult_integral in H0 as [H0|H0]; lra.
    + assert (Hlt : at_ x i < at_ x (S i)) by (apply Hx; lia).
      destruct (Hcell i ltac:(lia) ltac:(lra)) as [_ H]. rewrite E in H.
      assert ((r - at_ y i) * (at_ x (S i) - at_ x i) = 0) by lra.
      apply Rmult_integral in H0 as [H0|H0]; lra.
  - intros a b Hab. destruct (cell_exists x v Hl Hx Hin) as (i & Hi & Hv).
    destruct (Hcell i Hi Hv) as [_ H]. rewrite (Hab i), (Hab (S i)) in H by lia.
    assert (Hlt : at_ x i < at_ x (S i)) by (apply Hx; lia).
    assert ((r - (a * v + b)) * (at_ x (S i) - at_ x i) = 0) by nra.
    apply Rmult_integral in H0 as [H0|H0]; lra.
Qed.
Print Assumptions C27_linear_in_range.

(** Out of range: with [bounds_error] the call raises; without it exactly the values
    out of range get the fill value (by default NaN) and the others are as if asked alone. *)
Theorem C27_out_of_range :
  forall x y k be fill t vs,
    interp1d x y k be fill = Ok t ->
    let outside v := v < at_ x 0 \/ at_ x (length x - 1) < v in
    ((exists v, In v vs /\ outside v) -> be = true -> call t vs = Err ValueError) /\
    (be = false -> exists rs, call t vs = Ok rs /\ length rs = length vs /\
       forall j, (j < length vs)%nat ->
         (outside (at_ vs j) -> nth j rs None = fill) /\
         (~ outside (at_ vs j) -> Ok [nth j rs None] = call t [at_ vs j] /\ nth j rs None <> None)).
Proof.
  intros x y k be fill t vs Ht outside. apply interp1d_inv in Ht as (-> & Hxy & Hl). split.
  - intros (v & Hv & Ho) ->. unfold call. simpl t_bounds_error. cbn [andb].
    set (t := {| t_x := x; t_y := y; t_kind := k; t_bounds_error := true; t_fill := fill |}).
    destruct Ho as [Ho|Ho].
    + assert (existsb (below t) vs = true) as ->; [|reflexivity].
      apply existsb_exists. exists v. split; [assumption|]. unfold below. simpl. destruct (Rlt_dec _ _); [reflexivity|lra].
    + destruct (existsb (below t) vs); [reflexivity|].
      assert (existsb (above t) vs = true) as ->; [|reflexivity].
      apply existsb_exists. exists v. split; [assumption|]. unfold above. simpl. destruct (Rlt_dec _ _); [reflexivity|lra].
  - intros ->. unfold call. simpl t_bounds_error. cbn [andb].
    set (t := {| t_x := x; t_y := y; t_kind := k; t_bounds_error := false; t_fill := fill |}).
    eexists. split; [reflexivity|]. split; [apply map_length|]. intros j Hj.
    set (g := fun v => if below t v || above t v then t_fill t else Some (match t_kind t with
         Linear => call_linear (t_x t) (t_y t) v | Nearest => call_nearest (t_x t) (t_y t) v end)).
    assert (E : nth j (map g vs) None = g (at_ vs j)).
    { rewrite (nth_indep _ None (g 0)) by now rewrite map_length. apply map_nth. }
    rewrite E. unfold g. split.
    + intros Ho. unfold below, above, t. simpl.
      destruct (Rlt_dec (at_ vs j) (at_ x 0)); [reflexivity|].
      destruct (Rlt_dec (at_ x (length x - 1)) (at_ vs j)); [reflexivity|]. unfold outside in Ho. lra.
    + intros Ho. split; [reflexivity|]. unfold below, above, t. simpl.
      destruct (Rlt_dec (at_ vs j) (at_ x 0)); [unfold outside in Ho; lra|].
      destruct (Rlt_dec (at_ x (length x - 1)) (at_ vs j)); [unfold outside in Ho; lra|]. simpl. discriminate.
Qed.
Print Assumptions C27_out_of_range.

(** Kind nearest: the answer is the value of a nearest node. *)
Lemma midpoints_length x : length (midpoints x) = (length x - 1)%nat.
Proof.
  induction x as [|a [|b x] IH]; try reflexivity. change (midpoints (a :: b :: x)) with ((b + a) / 2 :: midpoints (b :: x)).
  simpl length in *. rewrite IH. lia.
Qed.
Lemma midpoints_nth x i : (S i < length x)%nat -> at_ (midpoints x) i = (at_ x (S i) + at_ x i) / 2.
Proof.
  revert i. induction x as [|a [|b x] IH]; intros i Hi; simpl in Hi; try lia.
  change (midpoints (a :: b :: x)) with ((b + a) / 2 :: midpoints (b :: x)).
  destruct i as [|i]; [reflexivity|]. simpl nth at 1. rewrite IH by (simpl; lia). reflexivity.
Qed.

Theorem C27_nearest :
  forall x y be fill t v, increasing x -> interp1d x y Nearest be fill = Ok t ->
    at_ x 0 <= v <= at_ x (length x - 1) ->
    exists k, (k < length x)%nat /\ call t [v] = Ok [Some (at_ y k)] /\
      forall i, (i < length x)%nat -> Rabs (v - at_ x k) <= Rabs (v - at_ x i).
Proof.
  intros x y be fill t v Hx Ht Hv. apply interp1d_inv in Ht as (-> & Hxy & Hl).
  assert (Hm : increasing (midpoints x)).
  { intros i j Hij. rewrite midpoints_length in Hij. rewrite !midpoints_nth by lia.
    assert (at_ x i < at_ x j) by (apply Hx; lia). assert (at_ x (S i) < at_ x (S j)) by (apply Hx; lia). lra. }
  destruct (searchsorted_spec (midpoints x) v Hm) as (S1 & S2 & S3). rewrite midpoints_length in *.
  set (k := searchsorted (midpoints x) v) in *. exists k. split; [lia|]. split.
  - rewrite call_in_range; [|simpl; intros w [<-|[]]; exact Hv]. simpl. do 2 f_equal. unfold call_nearest. fold k. f_equal. f_equal.
    unfold clip. lia.
  - intros i Hi. destruct (lt_eq_lt_dec i k) as [[Hik| ->]|Hik]; [| lra |].
    + (* i < k: v beyond the midpoint after i.. *)
      specialize (S2 (k - 1)%nat ltac:(lia)). rewrite midpoints_nth in S2 by lia.
      replace (S (k - 1)) with k in S2 by lia.
      assert (at_ x i <= at_ x (k - 1)) by (apply increasing_le; [assumption|lia]).
      assert (at_ x (k - 1) < at_ x k) by (apply Hx; lia).
      unfold Rabs. destruct (Rcase_abs (v - at_ x k)), (Rcase_abs (v - at_ x i)); lra.
    + specialize (S3 k ltac:(lia)). rewrite midpoints_nth in S3 by lia.
      assert (at_ x (S k) <= at_ x i) by (apply increasing_le; [assumption|lia]).
      assert (at_ x k < at_ x (S k)) by (apply Hx; lia).
      unfold Rabs. destruct (Rcase_abs (v - at_ x k)), (Rcase_abs (v - at_ x i)); lra.
Qed.
Print Assumptions C27_nearest.

Lemma inc3 a b c : a < b -> b < c -> increasing [a; b; c].
Proof.
  intros H1 H2 i j Hij. simpl in Hij.
  destruct i as [|[|[|i]]], j as [|[|[|j]]]; try lia; simpl; lra.
Qed.
Example C27_case :
  increasing [1; 2; 4] /\ interp1d [1; 2; 4] [5; 7; 6] Linear true None =
    Ok {| t_x := [1; 2; 4]; t_y := [5; 7; 6]; t_kind := Linear; t_bounds_error := true; t_fill := None |} /\
  (forall v, In v [1; 3; 4] -> at_ [1; 2; 4] 0 <= v <= at_ [1; 2; 4] (length [1; 2; 4] - 1)).
Proof.
  split; [apply inc3; lra|]. split; [reflexivity|]. intros v [<-|[<-|[<-|[]]]]; simpl; lra.
Qed.

(** * C28 *)

Lemma find_cell_shift x : forall i v k, find_cell i x v = Some k ->
  (i <= k)%nat /\ (S (k - i) < length x)%nat /\ at_ x (k - i) <= v < at_ x (S (k - i)).
Proof.
  induction x as [|a x IH]; intros i v k H; [discriminate|].
  destruct x as [|b x]; [discriminate|].
  change (find_cell i (a :: b :: x) v) with
    (if Rle_dec a v then if Rlt_dec v b then Some i else find_cell (S i) (b :: x) v
      else find_cell (S i) (b :: x) v) in H.
  assert (Hrec : find_cell (S i) (b :: x) v = Some k ->
     (i <= k)%nat /\ (S (k - i) < length (a :: b :: x))%nat /\
     at_ (a :: b :: x) (k - i) <= v < at_ (a :: b :: x) (S (k - i))).
  { intros G. apply IH in G as (G1 & G2 & G3).
    replace (k - i)%nat with (S (k - S i)) by lia. split; [lia|]. split; [simpl in *; lia|].
    simpl in *. exact G3. }
  destruct (Rle_dec a v); [|now apply Hrec].
  destruct (Rlt_dec v b); [|now apply Hrec].
  injection H as <-. replace (i - i)%nat with 0%nat by lia. simpl. split; [lia|]. split; [lia|]. lra.
Qed.

Lemma find_cell_found x i v : increasing x -> (S i < length x)%nat ->
  at_ x i <= v < at_ x (S i) -> forall s, find_cell s x v = Some (s + i)%nat.
Proof.
  revert i. induction x as [|a x IH]; intros i Hx Hi Hv s; [simpl in Hi; lia|].
  destruct x as [|b x]; [simpl in Hi; lia|].
  change (find_cell s (a :: b :: x) v) with
    (if Rle_dec a v then if Rlt_dec v b then Some s else find_cell (S s) (b :: x) v
      else find_cell (S s) (b :: x) v).
  destruct i as [|i].
  - simpl in Hv. destruct (Rle_dec a v); [|lra]. destruct (Rlt_dec v b); [f_equal; lia|lra].
  - assert (Hrec : find_cell (S s) (b :: x) v = Some (s + S i)%nat).
    { rewrite (IH i); [f_equal; lia|exact (increasing_tail _ _ Hx)|simpl in *; lia|exact Hv]. }
    assert (Hb : b <= v).
    { apply Rle_trans with (at_ (a :: b :: x) (S i)); [|apply Hv].
      change b with (at_ (a :: b :: x) 1). apply increasing_le; [assumption|simpl in *; lia]. }
    destruct (Rle_dec a v); [|exact Hrec]. destruct (Rlt_dec v b); [lra|exact Hrec].
Qed.

Definition zval (z : list (list R)) (i j : nat) : R := at_ (nth i z []) j.

(** For every grid and every query in the half-open rectangle: the tabulated value
    at nodes, between the smallest and the largest corner in a cell, and the
    bilinear formula (exact for z = a + b x + c y + d x y). *)
Theorem C28_bilinear_partial :
  forall x y z i j xv yv,
    increasing x -> increasing y -> bilinear_ok x y z = true ->
    (S i < length x)%nat -> (S j < length y)%nat ->
    at_ x i <= xv < at_ x (S i) -> at_ y j <= yv < at_ y (S j) ->
    (xv = at_ x i -> yv = at_ y j -> bilinear x y z xv yv = zval z i j) /\
    (forall lo hi,
       (forall a b, (a = i \/ a = S i) -> (b = j \/ b = S j) -> lo <= zval z a b <= hi) ->
       lo <= bilinear x y z xv yv <= hi) /\
    (forall c0 c1 c2 c3,
       (forall a b, (a = i \/ a = S i) -> (b = j \/ b = S j) ->
          zval z a b = c0 + c1 * at_ x a + c2 * at_ y b + c3 * at_ x a * at_ y b) ->
       bilinear x y z xv yv = c0 + c1 * xv + c2 * yv + c3 * xv * yv).
Proof.
  intros x y z i j xv yv Hx Hy _ Hi Hj Hxv Hyv.
  assert (Hlx : at_ x i < at_ x (S i)) by (apply Hx; lia).
  assert (Hly : at_ y j < at_ y (S j)) by (apply Hy; lia).
  assert (E : bilinear x y z xv yv =
     let p := (xv - at_ x i) / (at_ x (S i) - at_ x i) in
     let q := (yv - at_ y j) / (at_ y (S j) - at_ y j) in
     (1 - q) * ((1 - p) * zval z i j + p * zval z (S i) j) + q * ((1 - p) * zval z i (S j) + p * zval z (S i) (S j))).
  { unfold bilinear. rewrite (find_cell_found x i xv Hx Hi Hxv 0), (find_cell_found y j yv Hy Hj Hyv 0).
    rewrite !Nat.add_0_l. unfold zval. cbv zeta. field. split; lra. }
  rewrite E. cbv zeta. set (p := (xv - at_ x i) / (at_ x (S i) - at_ x i)).
  set (q := (yv - at_ y j) / (at_ y (S j) - at_ y j)).
  assert (Hp : 0 <= p <= 1).
  { unfold p. split.
    - apply Rmult_le_pos; [lra|]. left. apply Rinv_0_lt_compat. lra.
    - apply (Rmult_le_reg_r (at_ x (S i) - at_ x i)); [lra|]. unfold Rdiv. rewrite Rmult_assoc, Rinv_l; lra. }
  assert (Hq : 0 <= q <= 1).
  { unfold q. split.
    - apply Rmult_le_pos; [lra|]. left. apply Rinv_0_lt_compat. lra.
    - apply (Rmult_le_reg_r (at_ y (S j) - at_ y j)); [lra|]. unfold Rdiv. rewrite Rmult_assoc, Rinv_l; lra. }
  split; [|split].
  - intros E1 E2. assert (p = 0) as -> by (unfold p; rewrite E1; field; lra).
    assert (q = 0) as -> by (unfold q; rewrite E2; field; lra). ring.
  - intros lo hi H.
    assert (C : forall b, (b = j \/ b = S j) -> lo <= (1 - p) * zval z i b + p * zval z (S i) b <= hi).
    { intros b Hb. pose proof (H i b ltac:(now left) Hb). pose proof (H (S i) b ltac:(now right) Hb). split; nra. }
    pose proof (C j ltac:(now left)). pose proof (C (S j) ltac:(now right)). split; nra.
  - intros c0 c1 c2 c3 H. rewrite !H by auto. unfold p, q. field. split; lra.
Qed.
Print Assumptions C28_bilinear_partial.
Example C28_case :
  increasing [0; 1; 2] /\ bilinear_ok [0; 1; 2] [0; 1; 2] [[1; 2; 3]; [4; 5; 6]; [7; 8; 9]] = true /\
  at_ [0; 1; 2] 1 <= 3 / 2 < at_ [0; 1; 2] 2.
Proof. split; [apply inc3; lra|]. split; [reflexivity|]. simpl. lra. Qed.

(** The constructor accepts exactly the rectangular tables with at least three
    points in each direction. *)
Theorem C28_shapes_checked :
  forall x y z,
    bilinear_ok x y z = true <->
    (exists nx ny, length x = S (S (S nx)) /\ length y = S (S (S ny)) /\ length z = length x /\
       forall i, (i < length x)%nat -> exists row, nth_error z i = Some row /\ length row = length y).
Proof.
  intros x y z. unfold bilinear_ok. rewrite !andb_true_iff, !Nat.leb_le, Nat.eqb_eq, forallb_forall. split.
  - intros (((H1 & H2) & H3) & H4). exists (length x - 3)%nat, (length y - 3)%nat.
    split; [lia|]. split; [lia|]. split; [congruence|]. intros i Hi.
    destruct (nth_error z i) as [row|] eqn:E; [|apply nth_error_None in E; lia].
    exists row. split; [reflexivity|]. apply nth_error_In, H4, Nat.eqb_eq in E. congruence.
  - intros (nx & ny & H1 & H2 & H3 & H4). repeat split; try lia. intros row Hr.
    apply In_nth_error in Hr as (i & Hi). assert (i < length z)%nat by (apply nth_error_Some; congruence).
    destruct (H4 i) as (row' & E & L); [lia|]. rewrite Hi in E. injection E as <-. apply Nat.eqb_eq. congruence.
Qed.
Print Assumptions C28_shapes_checked.
Example C28_shapes_case :
  bilinear_ok [0; 1; 2] [0; 1; 2] [[1; 2; 3]; [4; 5; 6]; [7; 8; 9]] = true /\
  bilinear_ok [0; 1] [0; 1; 2] [[1; 2; 3]; [4; 5; 6]] = false.
Proof. split; reflexivity. Qed.

(** At the upper edges of every grid the answer is 0, whatever is tabulated there. *)
Theorem C28_bilinear_refuted :
  (forall x y z yv, increasing x -> (1 <= length x)%nat ->
     bilinear x y z (at_ x (length x - 1)) yv = 0) /\
  exists x y z i j, increasing x /\ increasing y /\ bilinear_ok x y z = true /\
    (i < length x)%nat /\ (j < length y)%nat /\ bilinear x y z (at_ x i) (at_ y j) <> zval z i j.
Proof.
  assert (G : forall x y z yv, increasing x -> (1 <= length x)%nat ->
     bilinear x y z (at_ x (length x - 1)) yv = 0).
  { intros x y z yv Hx Hl. unfold bilinear. destruct (find_cell 0 x (at_ x (length x - 1))) as [k|] eqn:E; [|reflexivity].
    apply find_cell_shift in E as (_ & E2 & E3). exfalso.
    assert (at_ x (S (k - 0)) <= at_ x (length x - 1)) by (apply increasing_le; [assumption|lia]). lra. }
  split; [exact G|].
  exists [0; 1; 2], [0; 1; 2], [[1; 2; 3]; [4; 5; 6]; [7; 8; 9]], 2%nat, 1%nat.
  assert (H : increasing [0; 1; 2]) by (apply inc3; lra).
  repeat (split; [first [assumption | reflexivity | simpl; lia]|]).
  rewrite (G [0; 1; 2] _ _ _ H ltac:(simpl; lia)). unfold zval. simpl. lra.
Qed.
Print Assumptions C28_bilinear_refuted.

(** Energy balance of the coherent transfer-matrix method: properties C42, C43. *)
From Coq Require Import Reals Lra Psatz String List Arith Lia Bool.
From Coquelicot Require Import Complex.
From Verif Require Import Common TmmModel.
From Coq Require Import List.
Import ListNotations.
Open Scope R_scope.
Open Scope C_scope.
Open Scope list_scope.

(** * Vocabulary of the statements *)
Definition valid_pol (pol : string) : Prop := pol = "s"%string \/ pol = "p"%string.
(** A structure: incident medium, inner layers (index, thickness), exit medium. *)
Definition stack_n (n0 : C) (l : list (C * R)) (nf : C) : list C := n0 :: map fst l ++ [nf].
Definition stack_d (l : list (C * R)) : list (option R) := None :: map (fun x => Some (snd x)) l ++ [None].
(** Not amplifying, and (if transparent) below total reflection for the conserved
    transverse index [beta = n_0 sin th_0]. *)
Definition passive (beta : R) (n : C) : Prop :=
  (0 < Re n /\ 0 <= Im n /\ (0 < Im n \/ beta < Re n))%R.
Definition transparent (beta : R) (n : C) : Prop := Im n = 0%R /\ (0 < Re n)%R /\ (beta < Re n)%R.

(** * Complex helpers *)
Lemma C_eq (z w : C) : Re z = Re w -> Im z = Im w -> z = w.
Proof. destruct z, w; cbn. intros -> ->. reflexivity. Qed.
Lemma Cmod2 (z : C) : (Cmod z ^ 2 = Re z ^ 2 + Im z ^ 2)%R.
Proof.
  unfold Cmod. rewrite <- Rsqr_pow2, Rsqr_sqrt; [reflexivity|]. destruct z; cbn. nra.
Qed.
Lemma Cmod_sq (z : C) : Cmod (z * z) = (Re z ^ 2 + Im z ^ 2)%R.
Proof. rewrite Cmod_mult, <- Cmod2. ring. Qed.
Lemma C_neq_Re (z : C) : Re z <> 0%R -> z <> 0.
Proof. intros H ->. apply H. reflexivity. Qed.
Lemma C_neq_Im (z : C) : Im z <> 0%R -> z <> 0.
Proof. intros H ->. apply H. reflexivity. Qed.
Lemma Re_mult (z w : C) : Re (z * w) = (Re z * Re w - Im z * Im w)%R.
Proof. reflexivity. Qed.
Lemma Im_mult (z w : C) : Im (z * w) = (Re z * Im w + Im z * Re w)%R.
Proof. reflexivity. Qed.

Lemma csqrt_sq (z : C) : csqrt z * csqrt z = z.
Proof.
  assert (Hm : (Cmod z ^ 2 = Re z ^ 2 + Im z ^ 2)%R) by apply Cmod2.
  assert (Hp : (0 <= Cmod z)%R) by apply Cmod_ge_0.
  destruct z as [x y]. cbn [Re Im fst snd] in *.
  assert (H1 : (0 <= (Cmod (x, y) + x) / 2)%R) by nra.
  assert (H2 : (0 <= (Cmod (x, y) - x) / 2)%R) by nra.
  unfold csqrt. cbn [Re Im fst snd]. set (m := Cmod (x, y)) in *. clearbody m.
  assert (S1 := sqrt_sqrt _ H1). assert (S2 := sqrt_sqrt _ H2).
  assert (Hs : (sqrt ((m + x) / 2) * sqrt ((m - x) / 2) = Rabs y / 2)%R).
  { rewrite <- sqrt_mult by assumption.
    replace ((m + x) / 2 * ((m - x) / 2))%R with ((Rabs y / 2) * (Rabs y / 2))%R.
    - apply sqrt_square. assert (Q := Rabs_pos y). lra.
    - assert (Q : (Rabs y * Rabs y = y * y)%R) by (rewrite <- Rabs_mult; apply Rabs_pos_eq; nra).
      nra. }
  set (p := sqrt ((m + x) / 2)) in *. set (q := sqrt ((m - x) / 2)) in *. clearbody p q.
  apply C_eq; rewrite ?Re_mult, ?Im_mult; cbn [Re Im fst snd]; destruct (Rlt_dec 0 y) as [Hy|Hy].
  - nra.
  - nra.
  - rewrite (Rabs_pos_eq y) in Hs by lra. nra.
  - rewrite (Rabs_left1 y) in Hs by lra. nra.
Qed.

(** The square root of a number strictly above the negative axis is in the right half
    plane, and keeps the sign of the imaginary part. *)
Lemma csqrt_quadrant (z : C) :
  (0 <= Im z)%R -> (0 < Im z \/ 0 < Re z)%R ->
  (0 < Re (csqrt z) /\ 0 <= Im (csqrt z) /\ (Im z = 0 -> Im (csqrt z) = 0))%R.
Proof.
  intros Hi Ho.
  assert (Hm : (Cmod z ^ 2 = Re z ^ 2 + Im z ^ 2)%R) by apply Cmod2.
  assert (Hp : (0 <= Cmod z)%R) by apply Cmod_ge_0.
  unfold csqrt. cbn [Re Im fst snd]. set (m := Cmod z) in *. fold (Re z). fold (Im z).
  set (x := Re z) in *. set (y := Im z) in *. clearbody m x y.
  assert (Hmx : (0 < m + x)%R).
  { destruct Ho as [Ho|Ho]; [|lra]. destruct (Rle_dec 0 x); [|]; [|nra].
    assert (0 < m)%R by nra. lra. }
  split; [|split].
  - apply sqrt_lt_R0. lra.
  - destruct (Rlt_dec 0 y) as [Hy|Hy].
    + rewrite Rmult_1_l. apply sqrt_pos.
    + assert (y = 0)%R by lra. subst y. destruct Ho as [Ho|Ho]; [lra|].
      assert (m = x)%R by nra. subst m. replace ((x - x) / 2)%R with 0%R by field.
      rewrite sqrt_0. lra.
  - intros ->. destruct (Rlt_dec 0 0) as [Hy|Hy]; [lra|]. destruct Ho as [Ho|Ho]; [lra|].
    assert (m = x)%R by nra. subst m. replace ((x - x) / 2)%R with 0%R by field.
    rewrite sqrt_0. lra.
Qed.

(** * The cosine in a passive medium *)
Lemma one_minus_sin2 (beta : R) (n : C) : (0 < Re n)%R ->
  let z := 1 - sin_in beta n * sin_in beta n in
  let D := (Re n ^ 2 + Im n ^ 2)%R in
  (Re z = 1 - beta ^ 2 * (Re n ^ 2 - Im n ^ 2) / D ^ 2 /\
   Im z = 2 * beta ^ 2 * Re n * Im n / D ^ 2)%R.
Proof.
  intros Hn z D. assert (HD : (D <> 0)%R) by (unfold D; nra).
  destruct n as [x y]. unfold z, D, sin_in, Cdiv, Cinv in *.
  cbn [Re Im fst snd Cminus Cplus Copp Cmult RtoC] in *.
  split; field; exact HD.
Qed.
Lemma cos_in_passive (beta : R) (n : C) : (0 <= beta)%R -> passive beta n ->
  let c := cos_in beta n in
  (0 < Re c /\ 0 <= Im c /\ (Im n = 0 -> Im c = 0) /\ 0 <= Im (c * c)%C)%R /\
  c * c = 1 - sin_in beta n * sin_in beta n.
Proof.
  intros Hb (Hx & Hy & Ho) c.
  destruct (one_minus_sin2 beta n Hx) as [HR HI].
  assert (Hc : c * c = 1 - sin_in beta n * sin_in beta n) by (unfold c, cos_in; apply csqrt_sq).
  set (z := 1 - sin_in beta n * sin_in beta n) in *.
  set (D := (Re n ^ 2 + Im n ^ 2)%R) in *.
  assert (HD : (0 < D)%R) by (unfold D; nra).
  assert (HD2 : (0 < D ^ 2)%R) by nra.
  assert (Hz : (0 <= Im z)%R).
  { rewrite HI. apply Rmult_le_pos; [|left; now apply Rinv_0_lt_compat].
    apply Rmult_le_pos; [|lra]. apply Rmult_le_pos; [nra|lra]. }
  assert (Hzo : (0 < Im z \/ 0 < Re z)%R).
  { destruct (Rle_lt_or_eq_dec 0 (Im n) Hy) as [Hp| H0].
    - destruct (Rle_lt_or_eq_dec 0 beta Hb) as [Hbp| <-].
      + left. rewrite HI. apply Rmult_lt_0_compat; [|now apply Rinv_0_lt_compat].
        apply Rmult_lt_0_compat; [|lra]. apply Rmult_lt_0_compat; [nra|lra].
      + right. rewrite HR. unfold Rdiv. replace (0 ^ 2)%R with 0%R by ring. lra.
    - right. rewrite HR. unfold D. rewrite <- H0. destruct Ho as [Ho|Ho]; [lra|].
      replace (beta ^ 2 * (Re n ^ 2 - 0 ^ 2) / (Re n ^ 2 + 0 ^ 2) ^ 2)%R
        with ((beta / Re n) ^ 2)%R by (field; lra).
      assert (0 <= beta / Re n < 1)%R.
      { split; [apply Rmult_le_pos; [lra|left; apply Rinv_0_lt_compat; lra]|].
        apply (Rmult_lt_reg_r (Re n)); [lra|]. unfold Rdiv. rewrite Rmult_assoc, Rinv_l; lra. }
      nra. }
  destruct (csqrt_quadrant z Hz Hzo) as (Q1 & Q2 & Q3).
  split; [|exact Hc]. repeat split.
  - exact Q1.
  - exact Q2.
  - intros E. apply Q3. rewrite HI, E. unfold Rdiv. ring.
  - rewrite Hc. exact Hz.
Qed.

(** * The two tangential amplitudes: E and H for s, H and E for p *)
Definition fa (pol : string) (x : medium) : C := if String.eqb pol "s" then 1 else fst x.
Definition fb (pol : string) (x : medium) : C := if String.eqb pol "s" then fst x * snd x else snd x.
Definition flux (a b : C) (vw : C * C) : R :=
  Re (Cconj (a * (fst vw + snd vw)) * (b * (fst vw - snd vw))).
Definition den (pol : string) (x y : medium) : C := fa pol y * fb pol x + fa pol x * fb pol y.
Definition tq (pol : string) (x y : medium) : C := 2 * fa pol x * fb pol x / den pol x y.
Definition rq (pol : string) (x y : medium) : C :=
  (fa pol y * fb pol x - fa pol x * fb pol y) / den pol x y.

Lemma interface_t_q pol x y : valid_pol pol ->
  interface_t pol (fst x) (fst y) (snd x) (snd y) = Ok (tq pol x y).
Proof.
  intros [->| ->]; unfold interface_t, tq, den, fa, fb; cbn [String.eqb Ascii.eqb Bool.eqb];
    f_equal; unfold Cdiv; f_equal; try (f_equal; ring); ring.
Qed.
Lemma interface_r_q pol x y : valid_pol pol ->
  interface_r pol (fst x) (fst y) (snd x) (snd y) = Ok (rq pol x y).
Proof.
  intros [->| ->]; unfold interface_r, rq, den, fa, fb; cbn [String.eqb Ascii.eqb Bool.eqb];
    f_equal; unfold Cdiv; f_equal; try (f_equal; ring); ring.
Qed.

(** Continuity of the two tangential amplitudes through an interface. *)
Definition jmat (pol : string) (x y : medium) : mat2 :=
  mscale (1 / tq pol x y) (Mat 1 (rq pol x y) (rq pol x y) 1).
Lemma two_neq : RtoC 2 <> 0.
Proof. apply C_neq_Re. cbn. lra. Qed.
Lemma two_def : RtoC 2 = 1 + 1.
Proof. apply C_eq; cbn; ring. Qed.
Lemma continuity pol x y v : den pol x y <> 0 -> fa pol x <> 0 -> fb pol x <> 0 ->
  let u := mapply (jmat pol x y) v in
  fa pol x * (fst u + snd u) = fa pol y * (fst v + snd v) /\
  fb pol x * (fst u - snd u) = fb pol y * (fst v - snd v).
Proof.
  intros Hd Ha Hb u. assert (H2 := two_neq). unfold u, jmat, mapply, mscale, tq, rq.
  cbn [m00 m01 m10 m11 fst snd].
  unfold den in *. set (a := fa pol x) in *. set (b := fb pol x) in *.
  set (a' := fa pol y) in *. set (b' := fb pol y) in *.
  clearbody a b a' b'. destruct v as [v w]. cbn [fst snd].
  rewrite two_def in *.
  split; field; repeat split; auto.
Qed.
Lemma flux_interface pol x y v : den pol x y <> 0 -> fa pol x <> 0 -> fb pol x <> 0 ->
  flux (fa pol x) (fb pol x) (mapply (jmat pol x y) v) = flux (fa pol y) (fb pol y) v.
Proof.
  intros Hd Ha Hb. destruct (continuity pol x y v Hd Ha Hb) as [E1 E2].
  unfold flux. rewrite E1, E2. reflexivity.
Qed.

(** * Propagation through a layer *)
Definition pmat (delta : C) : mat2 := Mat (cexp (- (Ci * delta))) 0 0 (cexp (Ci * delta)).
Lemma mapply_mul a b v : mapply (mmul a b) v = mapply a (mapply b v).
Proof. unfold mapply, mmul. cbn [m00 m01 m10 m11 fst snd]. f_equal; ring. Qed.
Lemma layer_matrix_q pol delta x y : valid_pol pol ->
  layer_matrix pol delta x y = Ok (mmul (pmat delta) (jmat pol x y)).
Proof.
  intros Hp. unfold layer_matrix. rewrite interface_t_q, interface_r_q by exact Hp. cbn [bindR].
  f_equal. unfold jmat, pmat, mscale, mmul. cbn [m00 m01 m10 m11]. f_equal; ring.
Qed.
Lemma mapply_pmat x y v :
  mapply (pmat (x, y)) v =
  ((exp y * cos x, - (exp y * sin x))%R * fst v, (exp (- y) * cos x, exp (- y) * sin x)%R * snd v).
Proof.
  unfold mapply, pmat, cexp. cbn [m00 m01 m10 m11 fst snd].
  f_equal; apply C_eq; cbn [Re Im fst snd Cmult Cplus Copp Ci RtoC];
    replace (- (0 * x - 1 * y))%R with y by ring; replace (- (0 * y + 1 * x))%R with (- x)%R by ring;
    replace (0 * x - 1 * y)%R with (- y)%R by ring; replace (0 * y + 1 * x)%R with x by ring;
    rewrite ?cos_neg, ?sin_neg; ring.
Qed.
Lemma flux_AB a b v : let k := Cconj a * b in
  flux a b v = (Re k * (Cmod (fst v) ^ 2 - Cmod (snd v) ^ 2)
                - 2 * Im k * Im (Cconj (snd v) * fst v)%C)%R.
Proof.
  intros k. rewrite !Cmod2. unfold k, flux. destruct a, b, v as [[? ?] [? ?]].
  cbn [Re Im fst snd Cmult Cplus Cminus Copp Cconj]. ring.
Qed.

(** The flux leaving a passive layer is at most the flux entering it. *)
Lemma exp_pq (y : R) : (0 <= y)%R ->
  (0 <= exp y ^ 2 - 1 /\ 0 <= 1 - exp (- y) ^ 2 /\
   (2 * y) ^ 2 <= (exp y ^ 2 - 1) * (1 - exp (- y) ^ 2))%R.
Proof.
  intros Hy.
  assert (E : (exp y * exp (- y) = 1)%R) by (rewrite <- exp_plus, Rplus_opp_r; apply exp_0).
  assert (H1 : (1 + y <= exp y)%R) by apply exp_ineq1_le.
  assert (H2 := exp_pos (- y)).
  assert (H3 : (exp (- y) <= 1)%R) by nra.
  assert (S : (2 * y <= exp y - exp (- y))%R).
  { (* y -> exp y - exp(-y) - 2y is nondecreasing, and 0 at 0 *)
    destruct (Rle_lt_or_eq_dec 0 y Hy) as [H| <-]; [|rewrite Ropp_0; lra].
    assert (D : forall c : R, derivable_pt_lim (fun t => exp t - exp (- t) - 2 * t)%R c
                                (exp c + exp (- c) - 2)%R).
    { intros c. replace (exp c + exp (- c) - 2)%R with (exp c - exp (- c) * - 1 - 2 * 1)%R by ring.
      apply derivable_pt_lim_minus; [apply derivable_pt_lim_minus|].
      - apply derivable_pt_lim_exp.
      - apply (derivable_pt_lim_comp (fun t => - t)%R exp).
        + apply (derivable_pt_lim_opp (fun t => t)). apply derivable_pt_lim_id.
        + apply derivable_pt_lim_exp.
      - apply (derivable_pt_lim_scal (fun t => t)). apply derivable_pt_lim_id. }
    destruct (MVT_cor2 (fun t => exp t - exp (- t) - 2 * t)%R
                (fun c => exp c + exp (- c) - 2)%R 0 y H) as (c & Hc & _).
    { intros c _. apply D. }
    cbv beta in Hc. rewrite Ropp_0, exp_0 in Hc.
    assert (Ec : (exp c * exp (- c) = 1)%R) by (rewrite <- exp_plus, Rplus_opp_r; apply exp_0).
    assert (P1 := exp_pos c). assert (P2 := exp_pos (- c)).
    assert (0 <= exp c + exp (- c) - 2)%R.
    { set (e := exp c) in *. set (f := exp (- c)) in *. clearbody e f.
      replace (e + f - 2)%R with (f * (e - 1) ^ 2 + (1 - e * f) * (e - 2))%R by ring.
      rewrite Ec. assert (0 <= (e - 1) ^ 2)%R by apply pow2_ge_0. nra. }
    nra. }
  set (p := exp y) in *. set (q := exp (- y)) in *. clearbody p q.
  split; [nra|split; [nra|]].
  replace ((p ^ 2 - 1) * (1 - q ^ 2))%R with ((p - q) ^ 2 + (p * q - 1) * (2 - p * q + 1 - 2))%R by ring.
  rewrite E. nra.
Qed.
Lemma abs_sin_le (x : R) : (Rabs (sin x) <= Rabs x)%R.
Proof.
  assert (P : forall t, (0 <= t)%R -> (Rabs (sin t) <= t)%R).
  { intros t Ht. destruct (Rle_lt_or_eq_dec 0 t Ht) as [H| <-].
    - assert (U := sin_lt_x t H).
      apply Rabs_le. split; [|lra].
      destruct (Rle_dec t PI) as [Hp|Hp].
      + assert (0 <= sin t)%R by (apply sin_ge_0; lra). lra.
      + assert (B := SIN_bound t). assert (1 < PI)%R by (assert (Q := PI2_1); lra). lra.
    - rewrite sin_0, Rabs_R0. lra. }
  destruct (Rle_dec 0 x) as [H|H].
  - rewrite (Rabs_pos_eq x H). now apply P.
  - rewrite (Rabs_left1 x) by lra. assert (Q : (0 <= - x)%R) by lra. apply P in Q.
    rewrite sin_neg, Rabs_Ropp in Q. exact Q.
Qed.
Lemma propagated v x y : let u := mapply (pmat (x, y)) v in
  (Cmod (fst u) ^ 2 = exp y ^ 2 * Cmod (fst v) ^ 2 /\
   Cmod (snd u) ^ 2 = exp (- y) ^ 2 * Cmod (snd v) ^ 2 /\
   Im (Cconj (snd u) * fst u)%C =
     (cos x * cos x - sin x * sin x) * Im (Cconj (snd v) * fst v)%C
     - 2 * sin x * cos x * Re (Cconj (snd v) * fst v)%C)%R.
Proof.
  intros u. unfold u. rewrite mapply_pmat. rewrite !Cmod2. destruct v as [[v1 v2] [w1 w2]].
  cbn [Re Im fst snd Cmult Cplus Copp Cconj].
  assert (E : (exp y * exp (- y) = 1)%R) by (rewrite <- exp_plus, Rplus_opp_r; apply exp_0).
  assert (T : (sin x * sin x + cos x * cos x = 1)%R) by (fold (Rsqr (sin x)); fold (Rsqr (cos x)); apply sin2_cos2).
  set (p := exp y) in *. set (q := exp (- y)) in *. set (s := sin x) in *. set (k := cos x) in *.
  clearbody p q s k.
  split; [|split].
  - transitivity (p ^ 2 * (v1 ^ 2 + v2 ^ 2) * (s * s + k * k))%R; [ring|rewrite T; ring].
  - transitivity (q ^ 2 * (w1 ^ 2 + w2 ^ 2) * (s * s + k * k))%R; [ring|rewrite T; ring].
  - transitivity (((k * k - s * s) * (w1 * v2 + - w2 * v1) - 2 * s * k * (w1 * v1 - - w2 * v2)) * (p * q))%R;
      [ring|rewrite E; ring].
Qed.
Lemma flux_layer a b x y v : let k := Cconj a * b in
  (0 <= y)%R -> (0 <= Re k)%R -> (Rabs (Im k) * Rabs (sin x) <= Re k * y)%R ->
  (flux a b v <= flux a b (mapply (pmat (x, y)) v))%R.
Proof.
  intros k Hy HA HB. rewrite !flux_AB. fold k.
  destruct (propagated v x y) as (E1 & E2 & E3). rewrite E1, E2, E3.
  destruct (exp_pq y Hy) as (P1 & P2 & P3).
  set (V := (Cmod (fst v) ^ 2)%R) in *. set (W := (Cmod (snd v) ^ 2)%R) in *.
  set (S := Im (Cconj (snd v) * fst v)) in *. set (K := Re (Cconj (snd v) * fst v)) in *.
  assert (HVW : (S ^ 2 + K ^ 2 = V * W)%R).
  { unfold S, K, V, W. rewrite !Cmod2. destruct v as [[v1 v2] [w1 w2]].
    cbn [Re Im fst snd Cmult Cconj]. ring. }
  assert (HV : (0 <= V)%R) by (unfold V; apply pow2_ge_0).
  assert (HW : (0 <= W)%R) by (unfold W; apply pow2_ge_0).
  assert (T : (sin x ^ 2 + cos x ^ 2 = 1)%R).
  { assert (Q := sin2_cos2 x). unfold Rsqr in Q. lra. }
  set (A := Re k) in *. set (B := Im k) in *. set (s := sin x) in *. set (c := cos x) in *.
  set (p := (exp y ^ 2 - 1)%R) in *. set (q := (1 - exp (- y) ^ 2)%R) in *.
  replace (exp y ^ 2)%R with (p + 1)%R by (unfold p; ring).
  replace (exp (- y) ^ 2)%R with (1 - q)%R by (unfold q; ring).
  clearbody V W S K p q A B s c. clear E1 E2 E3.
  replace (c * c - s * s)%R with (1 - 2 * s ^ 2)%R by nra.
  set (X := (s * S + c * K)%R).
  enough (G : (0 <= A * (V * p + W * q) + 4 * B * s * X)%R).
  { unfold X in G. nra. }
  assert (HX : (X ^ 2 <= V * W)%R).
  { unfold X. assert ((s * S + c * K) ^ 2 + (s * K - c * S) ^ 2 = V * W)%R.
    { rewrite <- HVW. transitivity ((s ^ 2 + c ^ 2) * (S ^ 2 + K ^ 2))%R; [ring|rewrite T; ring]. }
    assert (0 <= (s * K - c * S) ^ 2)%R by apply pow2_ge_0. lra. }
  clearbody X.
  set (Y := Rabs X). assert (HY0 : (0 <= Y)%R) by apply Rabs_pos.
  assert (HY : (Y ^ 2 = X ^ 2)%R) by (unfold Y; apply pow2_abs).
  assert (G1 : (4 * Y * y <= V * p + W * q)%R).
  { assert (Q0 : (0 <= V * p + W * q)%R) by (apply Rplus_le_le_0_compat; now apply Rmult_le_pos).
    assert (Q1 : ((4 * Y * y) ^ 2 <= (V * p + W * q) ^ 2)%R).
    { assert (4 * (V * W) * (p * q) <= (V * p + W * q) ^ 2)%R.
      { assert (0 <= (V * p - W * q) ^ 2)%R by apply pow2_ge_0. nra. }
      assert (Y ^ 2 * (2 * y) ^ 2 <= (V * W) * (p * q))%R.
      { apply Rmult_le_compat; [apply pow2_ge_0|apply pow2_ge_0|lra|exact P3]. }
      nra. }
    assert (0 <= 4 * Y * y)%R by (apply Rmult_le_pos; lra).
    destruct (Rle_dec (4 * Y * y) (V * p + W * q)) as [?|N]; [assumption|nra]. }
  assert (G2 : (Rabs (4 * B * s * X) <= 4 * (A * y) * Y)%R).
  { rewrite !Rabs_mult. rewrite (Rabs_pos_eq 4) by lra. fold Y.
    nra. }
  assert (G3 : (- Rabs (4 * B * s * X) <= 4 * B * s * X)%R).
  { assert (Q := Rle_abs (- (4 * B * s * X))). rewrite Rabs_Ropp in Q. lra. }
  assert (G4 : (A * (4 * Y * y) <= A * (V * p + W * q))%R) by (apply Rmult_le_compat_l; assumption).
  lra.
Qed.
(** In a transparent layer the two are equal. *)
Lemma flux_layer_real a b x v : let k := Cconj a * b in
  Im k = 0%R -> flux a b (mapply (pmat (x, 0%R)) v) = flux a b v.
Proof.
  intros k Hk. rewrite !flux_AB. fold k. destruct (propagated v x 0) as (E1 & E2 & _).
  rewrite E1, E2, Hk, Ropp_0, exp_0. ring.
Qed.

(** * Passive media *)
Definition med (beta : R) (n : C) : medium := (n, cos_in beta n).
Definition cond (pol : string) (x : medium) : C := Cconj (fa pol x) * fb pol x.
Lemma passive_k (beta : R) (n : C) : (0 <= beta)%R -> passive beta n ->
  let k := n * cos_in beta n in
  (0 < Re k /\ 0 <= Im k /\ (Im n = 0 -> Im k = 0))%R /\ k * k = n * n - beta * beta.
Proof.
  intros Hb Hp k. destruct (cos_in_passive beta n Hb Hp) as [(H1 & H2 & H3 & _) Hc].
  destruct Hp as (Hx & Hy & _).
  assert (Hk : k * k = n * n - beta * beta).
  { unfold k. replace (n * cos_in beta n * (n * cos_in beta n))
      with (n * n * (cos_in beta n * cos_in beta n)) by ring.
    rewrite Hc. unfold sin_in. field. apply C_neq_Re. lra. }
  split; [|exact Hk].
  set (c := cos_in beta n) in *. clearbody c.
  assert (HI : Im (k * k) = (2 * (Re n * Im n))%R).
  { rewrite Hk. destruct n as [x y]. cbn [Re Im fst snd Cmult Cminus Cplus Copp RtoC]. ring. }
  rewrite Im_mult in HI.
  assert (Rk : Re k = (Re n * Re c - Im n * Im c)%R) by reflexivity.
  assert (Ik : Im k = (Re n * Im c + Im n * Re c)%R) by reflexivity.
  clearbody k.
  destruct (Rle_lt_or_eq_dec 0 (Im n) Hy) as [Hp| H0].
  - assert (0 < Im k)%R by (rewrite Ik; nra).
    split; [|split; [lra|lra]].
    assert (0 < Re n * Im n)%R by nra. nra.
  - rewrite <- H0 in *. assert (Im c = 0)%R by (now apply H3).
    rewrite Rk, Ik. rewrite H. split; [nra|split; [nra|intros; nra]].
Qed.
Lemma passive_med pol beta n : valid_pol pol -> (0 <= beta)%R -> passive beta n ->
  let x := med beta n in
  fa pol x <> 0 /\ fb pol x <> 0 /\
  (0 < Re (cond pol x) /\
   Rabs (Im (cond pol x)) * Rabs (Re (n * cos_in beta n)%C) <= Re (cond pol x) * Im (n * cos_in beta n)%C)%R.
Proof.
  intros Hpol Hb Hp x. destruct (cos_in_passive beta n Hb Hp) as [(H1 & H2 & H3 & H4) _].
  destruct (passive_k beta n Hb Hp) as [(K1 & K2 & K3) _].
  destruct Hp as (Hx & Hy & _).
  unfold x, cond, med. destruct Hpol as [->| ->]; unfold fa, fb; cbn [String.eqb Ascii.eqb Bool.eqb fst snd].
  - split; [apply C_neq_Re; cbn; lra|]. split; [apply C_neq_Re; lra|].
    replace (Cconj 1 * (n * cos_in beta n)) with (n * cos_in beta n) by (apply C_eq; cbn; ring).
    split; [exact K1|]. rewrite !Rabs_pos_eq by lra. lra.
  - split; [apply C_neq_Re; lra|]. split; [apply C_neq_Re; lra|].
    set (c := cos_in beta n) in *. clearbody c.
    assert (RA : Re (Cconj n * c) = (Re n * Re c + Im n * Im c)%R) by (destruct n, c; cbn; ring).
    assert (IA : Im (Cconj n * c) = (Re n * Im c - Im n * Re c)%R) by (destruct n, c; cbn; ring).
    rewrite Im_mult in H4.
    rewrite RA, IA. rewrite Re_mult, Im_mult. clear RA IA K1 K2 K3 H3.
    set (a := Re n) in *. set (b := Im n) in *. set (u := Re c) in *. set (v := Im c) in *.
    clearbody a b u v. split; [nra|].
    rewrite <- Rabs_mult. apply Rabs_le.
    assert (Q1 : (0 <= (u ^ 2 + v ^ 2) * (2 * (a * b)))%R) by (apply Rmult_le_pos; nra).
    assert (Q2 : (0 <= (a ^ 2 + b ^ 2) * (u * v + v * u))%R) by (apply Rmult_le_pos; nra).
    split; nra.
Qed.
Lemma passive_den pol beta n n' : valid_pol pol -> (0 <= beta)%R -> passive beta n -> passive beta n' ->
  den pol (med beta n) (med beta n') <> 0.
Proof.
  intros Hpol Hb Hp Hp'.
  destruct (passive_med pol beta n Hpol Hb Hp) as (_ & _ & P & _).
  destruct (passive_med pol beta n' Hpol Hb Hp') as (_ & _ & P' & _).
  destruct Hp as (Hx & _ & _). destruct Hp' as (Hx' & _ & _).
  unfold den, med, cond in *.
  destruct Hpol as [->| ->]; unfold fa, fb in *; cbn [String.eqb Ascii.eqb Bool.eqb fst snd] in *.
  - apply C_neq_Re.
    replace (1 * (n * cos_in beta n) + 1 * (n' * cos_in beta n'))
      with (Cconj 1 * (n * cos_in beta n) + Cconj 1 * (n' * cos_in beta n')) by (apply C_eq; cbn; ring).
    assert (Q : forall z w : C, Re (z + w) = (Re z + Re w)%R) by reflexivity.
    rewrite Q. lra.
  - intros E.
    assert (Z : Re ((n' * cos_in beta n + n * cos_in beta n') * (Cconj n * Cconj n'))
                = ((Re n' ^ 2 + Im n' ^ 2) * Re (Cconj n * cos_in beta n)%C
                   + (Re n ^ 2 + Im n ^ 2) * Re (Cconj n' * cos_in beta n')%C)%R).
    { destruct n, n', (cos_in beta (r, r0)), (cos_in beta (r1, r2)). cbn. ring. }
    rewrite E in Z. replace (Re (0 * (Cconj n * Cconj n'))) with 0%R in Z by (cbn; ring).
    assert (0 < Re n' ^ 2 + Im n' ^ 2)%R by nra. assert (0 < Re n ^ 2 + Im n ^ 2)%R by nra.
    nra.
Qed.

(** * Induction over the layers *)
Definition nxt (l : list (C * R)) (nf : C) : C := match l with [] => nf | (n, _) :: _ => n end.
Definition dl (lam beta : R) (n : C) (d : R) : C := delta_of lam (med beta n) d.
Fixpoint lms (pol : string) (lam beta : R) (l : list (C * R)) (nf : C) : list mat2 :=
  match l with
  | [] => []
  | (n, d) :: r =>
      mmul (pmat (dl lam beta n d)) (jmat pol (med beta n) (med beta (nxt r nf))) :: lms pol lam beta r nf
  end.
Lemma layer_matrices_lms pol lam (beta : R) l nf : valid_pol pol ->
  layer_matrices pol
    (map (fun xd => delta_of lam (fst xd) (snd xd))
         (combine (map (fun n => (n, cos_in beta n)) (map fst l ++ [nf])) (map snd l)))
    (map (fun n => (n, cos_in beta n)) (map fst l ++ [nf]))
  = Ok (lms pol lam beta l nf).
Proof.
  intros Hp. induction l as [|[n d] r IH]; [reflexivity|].
  cbn [map fst snd app combine lms].
  assert (Hn : exists tl_, map (fun n0 => (n0, cos_in beta n0)) (map fst r ++ [nf])
                          = med beta (nxt r nf) :: tl_).
  { destruct r as [|[n' d'] r']; cbn; eexists; reflexivity. }
  destruct Hn as [tl_ Hn].
  rewrite Hn in IH |- *. cbn [layer_matrices].
  change (n, cos_in beta n) with (med beta n). rewrite layer_matrix_q by exact Hp. cbn [bindR].
  rewrite IH. cbn [bindR]. reflexivity.
Qed.
Definition front (pol : string) (lam beta : R) (l : list (C * R)) (nf t : C) : C * C :=
  hd (t, RtoC 0) (amplitudes (lms pol lam beta l nf) t).
Lemma front_cons pol lam beta n d r nf t :
  front pol lam beta ((n, d) :: r) nf t =
  mapply (pmat (dl lam beta n d))
    (mapply (jmat pol (med beta n) (med beta (nxt r nf))) (front pol lam beta r nf t)).
Proof. unfold front at 1. cbn [lms amplitudes hd]. rewrite mapply_mul. reflexivity. Qed.
Lemma amplitudes_hd l t : hd (t, RtoC 0) (amplitudes l t) = fold_right mapply (t, RtoC 0) l.
Proof. induction l as [|m l IH]; [reflexivity|]. cbn [amplitudes hd fold_right]. now rewrite IH. Qed.
Lemma fold_left_mapply l m v : mapply (fold_left mmul l m) v = mapply m (fold_right mapply v l).
Proof.
  revert m. induction l as [|a l IH]; intros m; [reflexivity|].
  cbn [fold_left fold_right]. rewrite IH, mapply_mul. reflexivity.
Qed.
Lemma mapply_mid v : mapply mid v = v.
Proof. destruct v as [v w]. unfold mapply, mid. cbn [m00 m01 m10 m11 fst snd]. f_equal; ring. Qed.

Definition fl (pol : string) (beta : R) (n : C) (vw : C * C) : R :=
  flux (fa pol (med beta n)) (fb pol (med beta n)) vw.
(** Either the phase of the layer is not capped (line 285), or its loss is not extreme. *)
Definition benign (pol : string) (lam beta : R) (x : C * R) : Prop :=
  let n := fst x in let c := cos_in beta n in
  (Im (kz_of lam n c * snd x)%C <= 100 \/
   (pol = "s"%string /\ Rabs (Im (n * c)%C) <= 100 * Re (n * c)%C) \/
   (pol = "p"%string /\ Rabs (Im (Cconj n * c)%C) <= 100 * Re (Cconj n * c)%C))%R.
Lemma delta_parts lam n c (d : R) : (0 < lam)%R ->
  kz_of lam n c * d = ((2 * PI * d / lam) * Re (n * c)%C, (2 * PI * d / lam) * Im (n * c)%C)%R.
Proof.
  intros Hl. unfold kz_of. apply C_eq; destruct n, c; unfold Cdiv, Cinv;
    cbn [Re Im fst snd Cmult RtoC]; field; lra.
Qed.
Lemma flux_inner pol lam beta n d v : valid_pol pol -> (0 < lam)%R -> (0 <= beta)%R ->
  passive beta n -> (0 <= d)%R -> benign pol lam beta (n, d) ->
  (fl pol beta n v <= fl pol beta n (mapply (pmat (dl lam beta n d)) v))%R.
Proof.
  intros Hpol Hl Hb Hp Hd Hu.
  destruct (passive_med pol beta n Hpol Hb Hp) as (_ & _ & P1 & P2).
  destruct (passive_k beta n Hb Hp) as [(_ & K2 & _) _].
  assert (Hs : (0 <= 2 * PI * d / lam)%R).
  { assert (Q := PI_RGT_0). apply Rmult_le_pos; [|left; now apply Rinv_0_lt_compat].
    apply Rmult_le_pos; lra. }
  unfold dl, delta_of, cap_delta, med. cbn [fst snd].
  destruct (Rlt_dec 100 (Im (kz_of lam n (cos_in beta n) * d))) as [Hcap|Hcap].
  - unfold fl. apply flux_layer; [lra|unfold cond in P1; lra|].
    fold (cond pol (med beta n)).
    assert (HB : (Rabs (Im (cond pol (med beta n))) <= 100 * Re (cond pol (med beta n)))%R).
    { destruct Hu as [Hu|[[-> Hu]|[-> Hu]]].
      - cbn [fst snd] in Hu. lra.
      - cbn [fst] in Hu. unfold cond, fa, fb, med. cbn [String.eqb Ascii.eqb Bool.eqb fst snd].
        replace (Cconj 1 * (n * cos_in beta n)) with (n * cos_in beta n) by (apply C_eq; cbn; ring).
        exact Hu.
      - exact Hu. }
    set (x := Re (kz_of lam n (cos_in beta n) * d)).
    assert (Q := SIN_bound x).
    assert (Rabs (sin x) <= 1)%R by (apply Rabs_le; lra).
    assert (Q2 := Rabs_pos (sin x)).
    assert (Q3 := Rabs_pos (Im (cond pol (med beta n)))). nra.
  - clear Hu Hcap. rewrite delta_parts by exact Hl.
    set (s := (2 * PI * d / lam)%R) in *. clearbody s.
    unfold fl. apply flux_layer.
    + apply Rmult_le_pos; lra.
    + unfold cond in P1. lra.
    + fold (cond pol (med beta n)).
      apply Rle_trans with (Rabs (Im (cond pol (med beta n))) * Rabs (s * Re (n * cos_in beta n)%C))%R.
      { apply Rmult_le_compat_l; [apply Rabs_pos|apply abs_sin_le]. }
      rewrite Rabs_mult, (Rabs_pos_eq s) by lra.
      set (u := Rabs (Re (n * cos_in beta n))) in *. set (w := Im (n * cos_in beta n)) in *.
      set (b := Rabs (Im (cond pol (med beta n)))) in *. set (a := Re (cond pol (med beta n))) in *.
      clearbody u w a b. nra.
Qed.
Lemma fl_interface pol beta n n' v : valid_pol pol -> (0 <= beta)%R -> passive beta n -> passive beta n' ->
  fl pol beta n (mapply (jmat pol (med beta n) (med beta n')) v) = fl pol beta n' v.
Proof.
  intros Hpol Hb Hp Hp'. destruct (passive_med pol beta n Hpol Hb Hp) as (P1 & P2 & _).
  apply flux_interface; auto. now apply passive_den.
Qed.

(** * The result of [coh_tmm] on a structure *)
Definition mt (pol : string) (lam beta : R) (n0 : C) (l : list (C * R)) (nf : C) : mat2 :=
  mtilde (rq pol (med beta n0) (med beta (nxt l nf))) (tq pol (med beta n0) (med beta (nxt l nf)))
         (lms pol lam beta l nf).
Lemma finite_all_some (l : list (C * R)) : finite_all (map (fun x => Some (snd x)) l) = Ok (map snd l).
Proof. induction l as [|x l IH]; [reflexivity|]. cbn. now rewrite IH. Qed.
Lemma is_inf_rev (l : list (C * R)) : is_inf (hd_error (rev (stack_d l))) = true.
Proof. unfold stack_d. rewrite app_comm_cons, rev_app_distr. reflexivity. Qed.
Lemma inner_stack (l : list (C * R)) : inner (stack_d l) = map (fun x => Some (snd x)) l.
Proof. unfold inner, stack_d. cbn [tl]. apply removelast_last. Qed.
Lemma last_stack n0 l nf d : last (stack_n n0 l nf) d = nf.
Proof. unfold stack_n. rewrite app_comm_cons. apply last_last. Qed.
Lemma eps_pos : (0 < epsilon100)%R.
Proof. unfold epsilon100. apply Rmult_lt_0_compat; [lra|]. apply Rinv_0_lt_compat, pow_lt. lra. Qed.
Definition Tv (pol : string) (t n0 nf c0 cf : C) : R :=
  (Cmod (t * t)%C * (Re (if String.eqb pol "s" then nf * cf else nf * Cconj cf)%C
                     / Re (if String.eqb pol "s" then n0 * c0 else n0 * Cconj c0)%C))%R.
Definition pev (pol : string) (r n0 c0 : C) : R :=
  (Re (if String.eqb pol "s" then n0 * c0 * (1 + Cconj r) * (1 - r)
       else n0 * Cconj c0 * (1 + r) * (1 - Cconj r))%C
   / Re (if String.eqb pol "s" then n0 * c0 else n0 * Cconj c0)%C)%R.
Lemma coh_tmm_stack pol (n0 s0 c0 : C) l nf lam (beta : R) : valid_pol pol -> n0 * s0 = beta ->
  let m := mt pol lam beta n0 l nf in
  let r := m10 m / m00 m in let t := 1 / m00 m in
  coh_tmm pol (stack_n n0 l nf) (stack_d l) s0 c0 lam
  = Ok (CohData pol r t (R_from_r r) (Tv pol t n0 nf c0 (cos_in beta nf)) (pev pol r n0 c0)
          ((RtoC 0, RtoC 0) :: amplitudes (lms pol lam beta l nf) t)
          (map (fun n => kz_of lam n (cos_in beta n)) (stack_n n0 l nf))
          (map (cos_in beta) (stack_n n0 l nf)) (stack_n n0 l nf) (stack_d l) c0 lam).
Proof.
  intros Hpol Hb m r t. unfold coh_tmm.
  replace (length (stack_n n0 l nf)) with (length (stack_d l)).
  2:{ unfold stack_n, stack_d. cbn [length]. rewrite !app_length, !map_length. reflexivity. }
  rewrite Nat.eqb_refl. cbn [negb].
  replace (length (stack_d l) =? 0)%nat with false by (symmetry; apply Nat.eqb_neq; cbn; lia).
  rewrite is_inf_rev. replace (is_inf (hd_error (stack_d l))) with true by reflexivity. cbn [andb negb].
  rewrite inner_stack, finite_all_some.
  assert (Hns : exists rest, map fst l ++ [nf] = nxt l nf :: rest).
  { destruct l as [|[n d] l']; cbn; eexists; reflexivity. }
  destruct Hns as [rest Hns].
  assert (HL := layer_matrices_lms pol lam beta l nf Hpol).
  assert (HS : stack_n n0 l nf = n0 :: nxt l nf :: rest) by (unfold stack_n; now rewrite Hns).
  assert (HLs := last_stack n0 l nf n0).
  rewrite Hns in HL. rewrite HS in *. clear HS. cbv beta iota zeta. rewrite HLs, Hb.
  destruct (Rlt_dec epsilon100 (Rabs (Im beta))) as [H|_].
  { exfalso. cbn in H. rewrite Rabs_R0 in H. assert (Q := eps_pos). lra. }
  cbn [bindR]. rewrite HL.
  change n0 with (fst (med beta n0)) at 2 3.
  assert (H1 := interface_t_q pol (med beta n0) (med beta (nxt l nf)) Hpol).
  assert (H2 := interface_r_q pol (med beta n0) (med beta (nxt l nf)) Hpol).
  cbn [med fst snd] in H1, H2. cbn [med fst snd]. rewrite H1, H2. cbn [bindR].
  fold (med beta n0) (med beta (nxt l nf)).
  fold (mt pol lam beta n0 l nf). fold m. fold r. fold t.
  assert (ET : T_from_t pol t n0 nf c0 (cos_in beta nf) = Ok (Tv pol t n0 nf c0 (cos_in beta nf))).
  { unfold T_from_t, Tv. destruct Hpol as [->| ->]; reflexivity. }
  assert (EP : power_entering_from_r pol r n0 c0 = Ok (pev pol r n0 c0)).
  { unfold power_entering_from_r, pev. destruct Hpol as [->| ->]; reflexivity. }
  rewrite ET. cbn [bindR]. rewrite EP. cbn [bindR]. reflexivity.
Qed.

(** * Fluxes along the structure *)
Fixpoint fluxes (pol : string) (lam beta : R) (l : list (C * R)) (nf t : C) : list R :=
  fl pol beta (nxt l nf) (front pol lam beta l nf t) ::
  match l with [] => [] | _ :: r => fluxes pol lam beta r nf t end.
Definition medium_ok (pol : string) (lam beta : R) (x : C * R) : Prop :=
  passive beta (fst x) /\ (0 <= snd x)%R /\ benign pol lam beta x.
Fixpoint nonincr (l : list R) : Prop :=
  match l with
  | x :: ((y :: _) as r) => (y <= x)%R /\ nonincr r
  | _ => True
  end.
Lemma nxt_passive pol lam beta l nf : Forall (medium_ok pol lam beta) l -> passive beta nf ->
  passive beta (nxt l nf).
Proof. intros H Hf. destruct l as [|[n d] r]; [exact Hf|]. apply Forall_inv in H. apply H. Qed.
Lemma fluxes_nonincr pol lam beta l nf t : valid_pol pol -> (0 < lam)%R -> (0 <= beta)%R ->
  Forall (medium_ok pol lam beta) l -> passive beta nf -> nonincr (fluxes pol lam beta l nf t).
Proof.
  intros Hpol Hl Hb H Hf. induction l as [|[n d] r IH]; [exact I|].
  specialize (IH (Forall_inv_tail H)). assert (Hn := nxt_passive pol lam beta r nf (Forall_inv_tail H) Hf).
  apply Forall_inv in H. destruct H as (Hp & Hd & Hu). cbn [fst snd] in *.
  assert (G : (fl pol beta (nxt r nf) (front pol lam beta r nf t)
               <= fl pol beta n (front pol lam beta ((n, d) :: r) nf t))%R).
  { rewrite front_cons, <- (fl_interface pol beta n (nxt r nf)) by auto. now apply flux_inner. }
  cbn [fluxes nxt]. destruct r; split; assumption.
Qed.
Lemma fluxes_last pol lam beta l nf t :
  last (fluxes pol lam beta l nf t) 0%R = fl pol beta nf (t, RtoC 0).
Proof.
  induction l as [|x r IH]; [reflexivity|]. rewrite <- IH. cbn [fluxes]. destruct r; reflexivity.
Qed.
Lemma fluxes_length pol lam beta l nf t : length (fluxes pol lam beta l nf t) = S (length l).
Proof. induction l as [|x r IH]; [reflexivity|]. cbn [fluxes length]. now rewrite IH. Qed.
Lemma nonincr_last (l : list R) : nonincr l -> forall x, (last l x <= hd x l)%R.
Proof.
  induction l as [|a r IH]; intros H x; [apply Rle_refl|]. destruct r as [|b r']; [apply Rle_refl|].
  destruct H as [H1 H2]. specialize (IH H2 x). cbn [hd] in *. cbn [last] in *. lra.
Qed.
Lemma fl_forward pol beta n t : fl pol beta n (t, RtoC 0) = (Re (cond pol (med beta n)) * Cmod t ^ 2)%R.
Proof.
  unfold fl. rewrite flux_AB. fold (cond pol (med beta n)). cbn [fst snd].
  rewrite Cmod_0. replace (Im (Cconj 0 * t)) with 0%R by (destruct t; cbn; ring). ring.
Qed.
(** For a real incident medium, the flux of (1, r). *)
Lemma fl_incident pol beta n r : Im (cond pol (med beta n)) = 0%R ->
  fl pol beta n (RtoC 1, r) = (Re (cond pol (med beta n)) * (1 - Cmod r ^ 2))%R.
Proof.
  intros H. unfold fl. rewrite flux_AB. fold (cond pol (med beta n)). rewrite H. cbn [fst snd].
  rewrite Cmod_1. ring.
Qed.
Lemma transparent_passive beta n : transparent beta n -> passive beta n.
Proof. intros (H1 & H2 & H3). unfold passive. lra. Qed.
Lemma transparent_cond pol beta n : valid_pol pol -> (0 <= beta)%R -> transparent beta n ->
  Im (cond pol (med beta n)) = 0%R /\ Im (cos_in beta n) = 0%R /\
  cond pol (med beta n) = (Re n * Re (cos_in beta n))%R.
Proof.
  intros Hpol Hb Ht. destruct (cos_in_passive beta n Hb (transparent_passive _ _ Ht)) as [(_ & _ & H & _) _].
  destruct Ht as (Hi & _). specialize (H Hi).
  assert (E : cond pol (med beta n) = (Re n * Re (cos_in beta n))%R).
  { unfold cond, med. set (c := cos_in beta n) in *. clearbody c.
    destruct Hpol as [->| ->]; unfold fa, fb; cbn [String.eqb Ascii.eqb Bool.eqb fst snd];
      apply C_eq; destruct n, c; cbn in *; subst; ring. }
  rewrite E. repeat split; auto.
Qed.
(** The end-to-end matrix maps the amplitudes behind the structure to those in front. *)
Lemma mt_apply pol lam beta n0 l nf (t : C) :
  mapply (mt pol lam beta n0 l nf) (t, RtoC 0) =
  mapply (jmat pol (med beta n0) (med beta (nxt l nf))) (front pol lam beta l nf t).
Proof.
  unfold mt, mtilde. rewrite mapply_mul, fold_left_mapply, mapply_mid.
  unfold front. rewrite amplitudes_hd. reflexivity.
Qed.
Lemma fl_mt pol lam beta n0 l nf t : valid_pol pol -> (0 <= beta)%R ->
  passive beta n0 -> passive beta (nxt l nf) ->
  fl pol beta n0 (mapply (mt pol lam beta n0 l nf) (t, RtoC 0))
  = hd 0%R (fluxes pol lam beta l nf t).
Proof.
  intros. rewrite mt_apply, fl_interface by assumption. destruct l; reflexivity.
Qed.
Lemma mt_col pol lam beta n0 l nf (t : C) :
  mapply (mt pol lam beta n0 l nf) (t, RtoC 0)
  = (m00 (mt pol lam beta n0 l nf) * t, m10 (mt pol lam beta n0 l nf) * t).
Proof. unfold mapply. cbn [fst snd]. f_equal; ring. Qed.
Lemma hd_fluxes_ge pol lam beta l nf t : valid_pol pol -> (0 < lam)%R -> (0 <= beta)%R ->
  Forall (medium_ok pol lam beta) l -> passive beta nf ->
  (fl pol beta nf (t, RtoC 0) <= hd 0 (fluxes pol lam beta l nf t))%R.
Proof.
  intros. rewrite <- (fluxes_last pol lam beta l nf t).
  apply (nonincr_last (fluxes pol lam beta l nf t)). now apply fluxes_nonincr.
Qed.
Lemma m00_nonzero_passive pol lam beta n0 l nf : valid_pol pol -> (0 < lam)%R -> (0 <= beta)%R ->
  passive beta n0 -> Forall (medium_ok pol lam beta) l -> passive beta nf ->
  m00 (mt pol lam beta n0 l nf) <> 0.
Proof.
  intros Hpol Hl Hb Hp0 H Hf E.
  assert (G := hd_fluxes_ge pol lam beta l nf 1 Hpol Hl Hb H Hf).
  rewrite <- (fl_mt pol lam beta n0 l nf 1 Hpol Hb Hp0 (nxt_passive _ _ _ _ _ H Hf)) in G.
  rewrite mt_col, E, fl_forward, Cmod_1 in G.
  unfold fl in G. rewrite flux_AB in G. fold (cond pol (med beta n0)) in G. cbn [fst snd] in G.
  destruct (passive_med pol beta n0 Hpol Hb Hp0) as (_ & _ & P0 & _).
  destruct (passive_med pol beta nf Hpol Hb Hf) as (_ & _ & Pf & _).
  replace (0 * 1) with (RtoC 0) in G by ring.
  replace (Cconj (m10 (mt pol lam beta n0 l nf) * 1) * 0) with (RtoC 0) in G by ring.
  replace (Im (RtoC 0)) with 0%R in G by reflexivity. rewrite Cmod_0 in G.
  assert (Q := pow2_ge_0 (Cmod (m10 (mt pol lam beta n0 l nf) * 1))). nra.
Qed.
Lemma m00_nonzero pol lam beta n0 l nf : valid_pol pol -> (0 < lam)%R -> (0 <= beta)%R ->
  transparent beta n0 -> Forall (medium_ok pol lam beta) l -> passive beta nf ->
  m00 (mt pol lam beta n0 l nf) <> 0.
Proof. intros Hpol Hl Hb H0 H Hf. apply m00_nonzero_passive; auto. now apply transparent_passive. Qed.

(** * [absorp_in_each_layer] *)
Lemma cexp_0 : cexp 0 = 1.
Proof. unfold cexp. cbn [Re Im fst snd RtoC]. rewrite exp_0, cos_0, sin_0. apply C_eq; cbn; ring. Qed.
Lemma E_f_0 v kz : E_f v kz 0 = v.
Proof. unfold E_f. replace (Ci * kz * 0) with (RtoC 0) by ring. rewrite cexp_0. ring. Qed.
Lemma E_b_0 v kz : E_b v kz 0 = v.
Proof. unfold E_b. replace (- (Ci * kz * 0)) with (RtoC 0) by ring. rewrite cexp_0. ring. Qed.
Definition A0 (pol : string) (n0 c0 : C) : R :=
  Re (if String.eqb pol "s" then n0 * c0 else n0 * Cconj c0)%C.
Lemma poyn_flux pol (beta : R) n kz v w n0 c0 : valid_pol pol ->
  poyn pol n (cos_in beta n) kz v w n0 c0 0 = Ok (fl pol beta n (v, w) / A0 pol n0 c0)%R.
Proof.
  intros [->| ->]; unfold poyn; rewrite E_f_0, E_b_0; cbn [String.eqb Ascii.eqb Bool.eqb];
    f_equal; unfold A0; cbn [String.eqb Ascii.eqb Bool.eqb]; f_equal;
    unfold fl, flux, fa, fb, med; cbn [String.eqb Ascii.eqb Bool.eqb fst snd];
    destruct (cos_in beta n), n, v, w; cbn; ring.
Qed.
Lemma amplitudes_length l t : length (amplitudes l t) = S (length l).
Proof. induction l as [|m l IH]; [reflexivity|]. cbn [amplitudes length]. now rewrite IH. Qed.
Lemma lms_length pol lam beta l nf : length (lms pol lam beta l nf) = length l.
Proof. induction l as [|[n d] l IH]; [reflexivity|]. cbn [lms length]. now rewrite IH. Qed.
Lemma fluxes_nth pol lam beta l nf t i : (i <= length l)%nat ->
  nth i (fluxes pol lam beta l nf t) 0%R =
  fl pol beta (nth i (map fst l ++ [nf]) 0) (nth i (amplitudes (lms pol lam beta l nf) t) (RtoC 0, RtoC 0)).
Proof.
  revert i. induction l as [|[n d] r IH]; intros i Hi.
  - destruct i; [reflexivity|]. cbn in Hi. lia.
  - destruct i as [|i]; [reflexivity|].
    cbn [fluxes nth map app fst lms amplitudes]. apply IH. cbn in Hi. lia.
Qed.
Lemma mapRR_ok {X Y} (f : X -> res Y) (g : X -> Y) (l : list X) :
  (forall x, In x l -> f x = Ok (g x)) -> mapRR f l = Ok (map g l).
Proof.
  induction l as [|x l IH]; intros H; [reflexivity|]. cbn [mapRR map].
  rewrite (H x) by (now left). cbn [bindR]. rewrite IH by (intros; apply H; now right). reflexivity.
Qed.
Lemma split_list (l : list R) (m : nat) : length l = S (S m) ->
  l = nth 0 l 0%R :: map (fun i => nth i l 0%R) (seq 1 m) ++ [nth (S m) l 0%R].
Proof.
  intros H. apply (nth_ext _ _ 0%R 0%R).
  - cbn [length]. rewrite app_length, map_length, seq_length. cbn. lia.
  - intros i Hi. destruct i as [|i]; [reflexivity|]. cbn [nth].
    destruct (Nat.eq_dec i m) as [->|Hne].
    + rewrite app_nth2; rewrite map_length, seq_length; [|lia]. now rewrite Nat.sub_diag.
    + rewrite app_nth1 by (rewrite map_length, seq_length; lia).
      symmetry.
      rewrite (nth_indep (map (fun i => nth i l 0%R) (seq 1 m)) 0%R ((fun i => nth i l 0%R) 0%nat))
        by (rewrite map_length, seq_length; lia).
      rewrite (map_nth (fun i => nth i l 0%R)), seq_nth by lia. reflexivity.
Qed.
Definition out (pol : string) (lam beta : R) (n0 c0 : C) (l : list (C * R)) (nf : C) : coh_data :=
  let m := mt pol lam beta n0 l nf in
  let r := m10 m / m00 m in let t := 1 / m00 m in
  CohData pol r t (R_from_r r) (Tv pol t n0 nf c0 (cos_in beta nf)) (pev pol r n0 c0)
          ((RtoC 0, RtoC 0) :: amplitudes (lms pol lam beta l nf) t)
          (map (fun n => kz_of lam n (cos_in beta n)) (stack_n n0 l nf))
          (map (cos_in beta) (stack_n n0 l nf)) (stack_n n0 l nf) (stack_d l) c0 lam.
Lemma poyn_in_out pol lam beta n0 c0 l nf i : valid_pol pol -> (i <= length l)%nat ->
  poyn_in (out pol lam beta n0 c0 l nf) (S i) 0
  = Ok (nth i (fluxes pol lam beta l nf (1 / m00 (mt pol lam beta n0 l nf))%C) 0 / A0 pol n0 c0)%R.
Proof.
  intros Hpol Hi. unfold poyn_in, out. cbn [cd_vw cd_pol cd_n cd_cos cd_kz cd_cos0].
  unfold stack_n at 4. cbn [hd].
  assert (HL : (S i < length (stack_n n0 l nf))%nat).
  { unfold stack_n. cbn [length]. rewrite app_length, map_length. cbn. lia. }
  rewrite (nth_indep (map (cos_in beta) (stack_n n0 l nf)) (RtoC 0) (cos_in beta 0))
    by (now rewrite map_length).
  rewrite map_nth. rewrite poyn_flux by exact Hpol.
  rewrite fluxes_nth by exact Hi. cbn [nth stack_n]. rewrite <- surjective_pairing. reflexivity.
Qed.
Lemma A0_cond pol (beta : R) n0 : valid_pol pol -> A0 pol n0 (cos_in beta n0) = Re (cond pol (med beta n0)).
Proof.
  intros [->| ->]; unfold A0, cond, med, fa, fb; cbn [String.eqb Ascii.eqb Bool.eqb fst snd];
    destruct n0, (cos_in beta (r, r0)); cbn; ring.
Qed.
Lemma pev_fl pol (beta : R) n0 r : valid_pol pol ->
  pev pol r n0 (cos_in beta n0) = (fl pol beta n0 (RtoC 1, r) / A0 pol n0 (cos_in beta n0))%R.
Proof.
  intros [->| ->]; unfold pev, A0, fl, flux, med, fa, fb; cbn [String.eqb Ascii.eqb Bool.eqb fst snd];
    f_equal; destruct n0, r, (cos_in beta (r0, r1)); cbn; ring.
Qed.
Lemma Tv_fl pol (beta : R) n0 nf c0 t : valid_pol pol ->
  Tv pol t n0 nf c0 (cos_in beta nf) = (fl pol beta nf (t, RtoC 0) / A0 pol n0 c0)%R.
Proof.
  intros Hpol. unfold Tv. fold (A0 pol n0 c0). rewrite fl_forward, Cmod_sq, Cmod2.
  fold (A0 pol nf (cos_in beta nf)). rewrite (A0_cond pol beta nf Hpol). unfold Rdiv. ring.
Qed.
Lemma powers_out_passive pol lam (beta : R) n0 l nf : valid_pol pol -> (0 < lam)%R -> (0 <= beta)%R ->
  passive beta n0 -> Forall (medium_ok pol lam beta) l -> passive beta nf ->
  let t := 1 / m00 (mt pol lam beta n0 l nf) in
  let a := A0 pol n0 (cos_in beta n0) in
  powers (out pol lam beta n0 (cos_in beta n0) l nf)
    = Ok (1 :: map (fun f => f / a) (fluxes pol lam beta l nf t))%R /\
  cd_power_entering (out pol lam beta n0 (cos_in beta n0) l nf) = (hd 0 (fluxes pol lam beta l nf t) / a)%R /\
  cd_T (out pol lam beta n0 (cos_in beta n0) l nf) = (last (fluxes pol lam beta l nf t) 0 / a)%R.
Proof.
  intros Hpol Hl Hb H0 H Hf t a.
  assert (HT : cd_T (out pol lam beta n0 (cos_in beta n0) l nf)
               = (last (fluxes pol lam beta l nf t) 0 / a)%R).
  { rewrite fluxes_last. unfold out. cbn [cd_T]. fold t. now rewrite (Tv_fl pol beta). }
  assert (HP : cd_power_entering (out pol lam beta n0 (cos_in beta n0) l nf)
               = (hd 0 (fluxes pol lam beta l nf t) / a)%R).
  { rewrite <- (fl_mt pol lam beta n0 l nf t Hpol Hb H0 (nxt_passive _ _ _ _ _ H Hf)).
    rewrite mt_col. assert (Hm := m00_nonzero_passive pol lam beta n0 l nf Hpol Hl Hb H0 H Hf).
    unfold out. cbn [cd_power_entering]. rewrite pev_fl by exact Hpol. fold a. unfold t.
    replace (m00 (mt pol lam beta n0 l nf) * (1 / m00 (mt pol lam beta n0 l nf))) with (RtoC 1)
      by (field; exact Hm).
    replace (m10 (mt pol lam beta n0 l nf) * (1 / m00 (mt pol lam beta n0 l nf)))
      with (m10 (mt pol lam beta n0 l nf) / m00 (mt pol lam beta n0 l nf)) by (field; exact Hm).
    reflexivity. }
  split; [|split; assumption].
  unfold powers. rewrite HP, HT.
  replace (length (cd_n (out pol lam beta n0 (cos_in beta n0) l nf))) with (length l + 2)%nat.
  2:{ unfold out, stack_n. cbn [cd_n length]. rewrite app_length, map_length. cbn. lia. }
  assert (El : l = [] \/ exists x l', l = x :: l') by (destruct l; eauto).
  destruct El as [->|(x & l' & El)]; [reflexivity|]. clear HP HT.
  replace (length l + 2 <=? 2)%nat with false by (symmetry; apply Nat.leb_gt; rewrite El; cbn; lia).
  assert (Hlen : length (fluxes pol lam beta l nf t) = S (S (length l'))).
  { rewrite fluxes_length, El. reflexivity. }
  rewrite (mapRR_ok _ (fun i => nth (i - 1) (fluxes pol lam beta l nf t) 0 / a)%R).
  2:{ intros i Hi. apply in_seq in Hi. destruct i as [|i]; [lia|].
      rewrite poyn_in_out; [|exact Hpol|rewrite El in *; cbn in *; lia]. cbn [Nat.sub]. rewrite Nat.sub_0_r.
      reflexivity. }
  cbn [bindR]. f_equal. f_equal.
  assert (HF := f_equal (map (fun f => f / a)%R) (split_list (fluxes pol lam beta l nf t) (length l') Hlen)).
  cbn [map] in HF. rewrite map_app in HF. cbn [map] in HF. rewrite HF. clear HF.
  assert (E1 : hd 0%R (fluxes pol lam beta l nf t) = nth 0 (fluxes pol lam beta l nf t) 0%R)
    by (destruct (fluxes pol lam beta l nf t); reflexivity).
  rewrite E1. f_equal. f_equal.
  - rewrite map_map. replace (length l + 2 - 3)%nat with (length l') by (rewrite El; cbn; lia).
    rewrite <- (seq_shift (length l') 1), map_map. apply map_ext. intros i. cbn [Nat.sub]. now rewrite Nat.sub_0_r.
  - f_equal. f_equal. rewrite (split_list (fluxes pol lam beta l nf t) (length l') Hlen) at 1.
    rewrite app_comm_cons. apply last_last.
Qed.
Lemma powers_out pol lam (beta : R) n0 l nf : valid_pol pol -> (0 < lam)%R -> (0 <= beta)%R ->
  transparent beta n0 -> Forall (medium_ok pol lam beta) l -> passive beta nf ->
  let t := 1 / m00 (mt pol lam beta n0 l nf) in
  let a := A0 pol n0 (cos_in beta n0) in
  powers (out pol lam beta n0 (cos_in beta n0) l nf)
    = Ok (1 :: map (fun f => f / a) (fluxes pol lam beta l nf t))%R /\
  cd_power_entering (out pol lam beta n0 (cos_in beta n0) l nf) = (hd 0 (fluxes pol lam beta l nf t) / a)%R /\
  cd_T (out pol lam beta n0 (cos_in beta n0) l nf) = (last (fluxes pol lam beta l nf t) 0 / a)%R.
Proof. intros Hpol Hl Hb H0. apply powers_out_passive; auto. now apply transparent_passive. Qed.

(** Drops of a nonincreasing list ending at a nonnegative value. *)
Fixpoint total (l : list R) : R := match l with [] => 0%R | x :: r => (x + total r)%R end.
Lemma drops_total (l : list R) : l <> [] -> total (drops l) = hd 0%R l.
Proof.
  induction l as [|x r IH]; [congruence|]. intros _. destruct r as [|y r']; [cbn; ring|].
  change (drops (x :: y :: r')) with ((x - y)%R :: drops (y :: r')). cbn [total hd].
  rewrite IH by discriminate. cbn [hd]. ring.
Qed.
Lemma drops_nonneg (l : list R) : nonincr l -> (0 <= last l 0)%R -> Forall (fun x => 0 <= x)%R (drops l).
Proof.
  induction l as [|x r IH]; intros H Hl; [constructor|]. destruct r as [|y r'].
  - cbn in *. apply Forall_cons; [exact Hl|constructor].
  - destruct H as [H1 H2]. change (drops (x :: y :: r')) with ((x - y)%R :: drops (y :: r')).
    apply Forall_cons; [lra|]. now apply IH.
Qed.
Lemma drops_length (l : list R) : length (drops l) = length l.
Proof. induction l as [|x r IH]; [reflexivity|]. destruct r as [|y r']; [reflexivity|].
  change (drops (x :: y :: r')) with ((x - y)%R :: drops (y :: r')). cbn [length] in *. now rewrite IH. Qed.
Lemma drops_last (l : list R) d : last (drops l) d = last l d.
Proof.
  induction l as [|x r IH]; [reflexivity|]. destruct r as [|y r']; [reflexivity|].
  transitivity (last (drops (y :: r')) d); [|exact IH].
  change (drops (x :: y :: r')) with ((x - y)%R :: drops (y :: r')).
  assert (Q : drops (y :: r') <> []) by (destruct r'; discriminate).
  destruct (drops (y :: r')); [congruence|reflexivity].
Qed.
Lemma clamp_id (l : list R) : Forall (fun x => 0 <= x)%R l -> map clamp0 l = l.
Proof.
  induction 1 as [|x l H _ IH]; [reflexivity|]. cbn. rewrite IH. f_equal. unfold clamp0.
  destruct (Rlt_dec x 0); [lra|reflexivity].
Qed.
Lemma nonincr_scale (a : R) (l : list R) : (0 < a)%R -> nonincr l -> nonincr (map (fun f => f / a)%R l).
Proof.
  intros Ha. induction l as [|x r IH]; [trivial|]. destruct r as [|y r']; [trivial|].
  intros [H1 H2]. split; [|now apply IH]. unfold Rdiv.
  apply Rmult_le_compat_r; [left; now apply Rinv_0_lt_compat|exact H1].
Qed.

(** * Incident light *)
Lemma cos_in_angle (n0 th : R) : (0 < n0)%R -> (0 <= th < PI / 2)%R ->
  cos_in (n0 * sin th)%R n0 = cos th.
Proof.
  intros Hn Hth. unfold cos_in.
  replace (sin_in (n0 * sin th)%R n0) with (RtoC (sin th)).
  2:{ unfold sin_in. rewrite RtoC_mult. field. intros E. apply (f_equal Re) in E. cbn in E. lra. }
  assert (Hc : (0 < cos th)%R) by (apply cos_gt_0; lra).
  assert (T := sin2_cos2 th). unfold Rsqr in T.
  replace (1 - sin th * sin th) with (RtoC (cos th ^ 2)) by (apply C_eq; cbn; lra).
  unfold csqrt. rewrite Cmod_R, (Rabs_pos_eq (cos th ^ 2)) by apply pow2_ge_0.
  cbn [Re Im fst snd RtoC]. destruct (Rlt_dec 0 0) as [F|_]; [lra|].
  replace ((cos th ^ 2 + cos th ^ 2) / 2)%R with (cos th * cos th)%R by field.
  rewrite sqrt_square by lra.
  replace ((cos th ^ 2 - cos th ^ 2) / 2)%R with 0%R by field. rewrite sqrt_0.
  apply C_eq; cbn; ring.
Qed.
Lemma incident_transparent (n0 th : R) : (0 < n0)%R -> (0 <= th < PI / 2)%R ->
  (0 <= n0 * sin th)%R /\ transparent (n0 * sin th) n0.
Proof.
  intros Hn Hth. assert (Hc : (0 < cos th)%R) by (apply cos_gt_0; lra).
  assert (T := sin2_cos2 th). unfold Rsqr in T.
  assert (H0 : (0 <= sin th)%R) by (apply sin_ge_0; lra).
  assert (H1 : (sin th < 1)%R) by nra.
  split; [nra|]. unfold transparent. cbn [Re Im fst snd RtoC]. repeat split; nra.
Qed.

(** ** C42: the absorptions of the layers, the reflectance and the transmittance are
    nonnegative and sum to one, for light from a transparent medium at any angle on any
    stack of passive layers: the clamping of line 641 never acts. *)
Theorem C42_balance_partial : forall pol (n0 th lam : R) (l : list (C * R)) (nf : C),
  valid_pol pol -> (0 < lam)%R -> (0 < n0)%R -> (0 <= th < PI / 2)%R ->
  let beta := (n0 * sin th)%R in
  Forall (fun x => passive beta (fst x) /\ (0 <= snd x)%R /\ benign pol lam beta x) l ->
  passive beta nf ->
  exists d A,
    coh_tmm pol (stack_n n0 l nf) (stack_d l) (sin th) (cos th) lam = Ok d /\
    absorp_in_each_layer d = Ok A /\
    length A = (length l + 2)%nat /\
    Forall (fun x => 0 <= x)%R A /\ total A = 1%R /\
    hd 0%R A = cd_R d /\ last A 0%R = cd_T d /\
    (cd_R d + cd_power_entering d = 1)%R /\
    (0 <= cd_R d < 1)%R /\ (0 < cd_T d <= 1)%R.
Proof.
  intros pol n0 th lam l nf Hpol Hl Hn Hth beta H Hf.
  destruct (incident_transparent n0 th Hn Hth) as [Hb H0]. fold beta in Hb, H0.
  assert (Hc0 := cos_in_angle n0 th Hn Hth). fold beta in Hc0.
  assert (HB : RtoC n0 * RtoC (sin th) = beta) by (unfold beta; now rewrite RtoC_mult).
  assert (HO := coh_tmm_stack pol n0 (sin th) (cos th) l nf lam beta Hpol HB). cbv zeta in HO.
  rewrite <- Hc0 in HO at 2 3 4.
  fold (out pol lam beta n0 (cos_in beta n0) l nf) in HO.
  change (Forall (medium_ok pol lam beta) l) in H.
  destruct (powers_out pol lam beta n0 l nf Hpol Hl Hb H0 H Hf) as (HP & HE & HT).
  set (t := 1 / m00 (mt pol lam beta n0 l nf)) in *.
  set (a := A0 pol n0 (cos_in beta n0)) in *.
  set (F := fluxes pol lam beta l nf t) in *.
  assert (Ha : (0 < a)%R).
  { unfold a. rewrite A0_cond by exact Hpol.
    now destruct (passive_med pol beta n0 Hpol Hb (transparent_passive _ _ H0)) as (_ & _ & P & _). }
  assert (HFm : nonincr F) by (unfold F; now apply fluxes_nonincr).
  assert (Hm := m00_nonzero pol lam beta n0 l nf Hpol Hl Hb H0 H Hf).
  assert (Htpos : (0 < Cmod t)%R).
  { apply Cmod_gt_0. unfold t. intros E.
    assert (Q : m00 (mt pol lam beta n0 l nf) * (1 / m00 (mt pol lam beta n0 l nf)) = 1) by (field; exact Hm).
    rewrite E in Q. apply (f_equal Re) in Q. cbn in Q. lra. }
  assert (HFl : (0 < last F 0)%R).
  { unfold F. rewrite fluxes_last, fl_forward.
    destruct (passive_med pol beta nf Hpol Hb Hf) as (_ & _ & P & _).
    apply Rmult_lt_0_compat; [exact P|]. now apply pow_lt. }
  assert (HFh := nonincr_last F HFm 0%R).
  assert (HR : (cd_R (out pol lam beta n0 (cos_in beta n0) l nf)
                + cd_power_entering (out pol lam beta n0 (cos_in beta n0) l nf) = 1)%R).
  { destruct (transparent_cond pol beta n0 Hpol Hb H0) as (HI & _).
    unfold out. cbn [cd_R cd_power_entering]. rewrite pev_fl, fl_incident by assumption.
    fold a. unfold R_from_r. unfold a. rewrite A0_cond by exact Hpol.
    rewrite <- (A0_cond pol beta n0 Hpol). fold a. field. lra. }
  set (d := out pol lam beta n0 (cos_in beta n0) l nf) in *.
  assert (HR0 : (0 <= cd_R d)%R) by (unfold d, out; cbn [cd_R]; apply pow2_ge_0).
  assert (HTp : (0 < cd_T d)%R) by (rewrite HT; apply Rmult_lt_0_compat; [exact HFl|now apply Rinv_0_lt_compat]).
  assert (HTE : (cd_T d <= cd_power_entering d)%R).
  { rewrite HT, HE. unfold Rdiv. apply Rmult_le_compat_r; [left; now apply Rinv_0_lt_compat|exact HFh]. }
  clearbody d.
  set (P := (1 :: map (fun f => f / a) F)%R) in *.
  assert (HPn : nonincr P).
  { unfold P. assert (Q := nonincr_scale a F Ha HFm). destruct F as [|f F']; [exact I|].
    cbn [map] in *. split; [|exact Q]. cbn [hd] in HE. lra. }
  assert (HPl : last P 0%R = cd_T d).
  { unfold P. rewrite HT. assert (QF : F <> []) by (unfold F; destruct l; discriminate).
    clearbody F. clear -QF. induction F as [|f F' IH]; [congruence|].
    destruct F' as [|g F'']; [reflexivity|]. exact (IH ltac:(discriminate)). }
  exists d, (drops P).
  assert (HA : Forall (fun x => 0 <= x)%R (drops P)) by (apply drops_nonneg; [exact HPn|lra]).
  split; [exact HO|]. split.
  { unfold absorp_in_each_layer. rewrite HP. cbn [bindR]. now rewrite clamp_id. }
  split.
  { rewrite drops_length. unfold P. cbn [length]. rewrite map_length. unfold F. rewrite fluxes_length. lia. }
  split; [exact HA|]. split; [apply drops_total; discriminate|].
  split.
  { unfold P. destruct F as [|f F'] eqn:EF.
    - exfalso. unfold F in EF. destruct l; discriminate.
    - cbn [map drops hd] in *. lra. }
  split; [rewrite drops_last; exact HPl|]. repeat split; lra.
Qed.

(** For every stack at all (any thickness, amplifying or not, capped or not): the power
    entering a stack from a transparent medium is what is not reflected. *)
Theorem C42_entering : forall pol (n0 th lam : R) (l : list (C * R)) (nf : C),
  valid_pol pol -> (0 < n0)%R -> (0 <= th < PI / 2)%R ->
  exists d, coh_tmm pol (stack_n n0 l nf) (stack_d l) (sin th) (cos th) lam = Ok d /\
            (cd_R d + cd_power_entering d = 1)%R.
Proof.
  intros pol n0 th lam l nf Hpol Hn Hth. set (beta := (n0 * sin th)%R).
  destruct (incident_transparent n0 th Hn Hth) as [Hb H0]. fold beta in Hb, H0.
  assert (Hc0 := cos_in_angle n0 th Hn Hth). fold beta in Hc0.
  assert (HB : RtoC n0 * RtoC (sin th) = beta) by (unfold beta; now rewrite RtoC_mult).
  eexists. split; [exact (coh_tmm_stack pol n0 (sin th) (cos th) l nf lam beta Hpol HB)|].
  cbn [cd_R cd_power_entering]. rewrite <- Hc0.
  destruct (transparent_cond pol beta n0 Hpol Hb H0) as (HI & _).
  rewrite pev_fl, fl_incident by assumption. unfold R_from_r.
  assert (Ha : (0 < A0 pol n0 (cos_in beta n0))%R).
  { rewrite A0_cond by exact Hpol.
    now destruct (passive_med pol beta n0 Hpol Hb (transparent_passive _ _ H0)) as (_ & _ & P & _). }
  rewrite <- (A0_cond pol beta n0 Hpol). field. lra.
Qed.

(** ** Lossless stacks *)
Lemma transparent_ok pol lam beta x : (0 < lam)%R -> (0 <= beta)%R ->
  transparent beta (fst x) -> (0 <= snd x)%R -> medium_ok pol lam beta x.
Proof.
  intros Hl Hb Ht Hd. split; [now apply transparent_passive|]. split; [exact Hd|]. left.
  rewrite delta_parts by exact Hl. cbn [Im snd].
  destruct (passive_k beta (fst x) Hb (transparent_passive _ _ Ht)) as [(_ & _ & K) _].
  rewrite K by apply Ht. lra.
Qed.
Lemma fluxes_const pol lam beta l nf t : valid_pol pol -> (0 < lam)%R -> (0 <= beta)%R ->
  Forall (fun x => transparent beta (fst x) /\ (0 <= snd x)%R) l -> passive beta nf ->
  hd 0%R (fluxes pol lam beta l nf t) = fl pol beta nf (t, RtoC 0).
Proof.
  intros Hpol Hl Hb H Hf. induction l as [|[n d] r IH]; [reflexivity|].
  specialize (IH (Forall_inv_tail H)).
  assert (Hn : passive beta (nxt r nf)).
  { apply (nxt_passive pol lam); [|exact Hf]. apply Forall_inv_tail in H.
    eapply Forall_impl; [|exact H]. intros x [H1 H2]. now apply transparent_ok. }
  apply Forall_inv in H. destruct H as [Ht Hd]. cbn [fst snd] in *.
  rewrite <- IH. cbn [fluxes hd nxt]. rewrite front_cons.
  assert (E : dl lam beta n d = ((2 * PI * d / lam) * Re (n * cos_in beta n)%C, 0)%R).
  { unfold dl, delta_of, cap_delta, med. cbn [fst snd]. rewrite delta_parts by exact Hl.
    destruct (passive_k beta n Hb (transparent_passive _ _ Ht)) as [(_ & _ & K) _].
    rewrite K by apply Ht. cbn [Im snd]. rewrite Rmult_0_r.
    destruct (Rlt_dec 100 0) as [F|_]; [lra|reflexivity]. }
  rewrite E. unfold fl at 1. rewrite flux_layer_real.
  - fold (fl pol beta n). etransitivity.
    + apply (fl_interface pol beta n (nxt r nf)); auto. now apply transparent_passive.
    + destruct r; reflexivity.
  - now destruct (transparent_cond pol beta n Hpol Hb Ht) as (HI & _).
Qed.

(** * Reversal *)
Definition dmat (a b : C) : mat2 := Mat a a b (- b).
Definition nmat (a b delta : C) : mat2 :=
  let e1 := cexp (- (Ci * delta)) in let e2 := cexp (Ci * delta) in
  Mat ((e1 + e2) / 2) ((e1 - e2) / 2 * (a / b)) ((e1 - e2) / 2 * (b / a)) ((e1 + e2) / 2).
Definition sw (m : mat2) : mat2 := Mat (m11 m) (m01 m) (m10 m) (m00 m).
Lemma sw_mul a b : sw (mmul a b) = mmul (sw b) (sw a).
Proof. unfold sw, mmul. cbn [m00 m01 m10 m11]. f_equal; ring. Qed.
Lemma mmul_assoc a b c : mmul a (mmul b c) = mmul (mmul a b) c.
Proof. unfold mmul. cbn [m00 m01 m10 m11]. f_equal; ring. Qed.
Lemma mmul_mid_r a : mmul a mid = a.
Proof. destruct a as [p q u w]. unfold mmul, mid. cbn [m00 m01 m10 m11]. f_equal; ring. Qed.
Lemma mmul_mid_l a : mmul mid a = a.
Proof. destruct a as [p q u w]. unfold mmul, mid. cbn [m00 m01 m10 m11]. f_equal; ring. Qed.
Fixpoint chain (pol : string) (lam beta : R) (l : list (C * R)) : mat2 :=
  match l with
  | [] => mid
  | (n, d) :: r => mmul (nmat (fa pol (med beta n)) (fb pol (med beta n)) (dl lam beta n d)) (chain pol lam beta r)
  end.
Lemma chain_app pol lam beta l l' :
  chain pol lam beta (l ++ l') = mmul (chain pol lam beta l) (chain pol lam beta l').
Proof.
  induction l as [|[n d] r IH]; cbn [chain app]; [now rewrite mmul_mid_l|].
  now rewrite IH, mmul_assoc.
Qed.
Lemma chain_rev pol lam beta l : chain pol lam beta (rev l) = sw (chain pol lam beta l).
Proof.
  induction l as [|[n d] r IH]; [reflexivity|]. cbn [rev chain].
  rewrite chain_app, IH, sw_mul. f_equal. cbn [chain]. rewrite mmul_mid_r. reflexivity.
Qed.
Lemma nmat_dmat (a b delta : C) v : a <> 0 -> b <> 0 ->
  mapply (dmat a b) (mapply (pmat delta) v) = mapply (nmat a b delta) (mapply (dmat a b) v).
Proof.
  intros Ha Hb. assert (H2 := two_neq). destruct v as [v w].
  unfold mapply, dmat, pmat, nmat. cbn [m00 m01 m10 m11 fst snd].
  set (e1 := cexp (- (Ci * delta))). set (e2 := cexp (Ci * delta)). clearbody e1 e2.
  rewrite two_def in *. f_equal; field; repeat split; auto.
Qed.
Lemma dmat_front pol lam beta l nf t : valid_pol pol -> (0 <= beta)%R ->
  Forall (fun x => passive beta (fst x)) l -> passive beta nf ->
  let x1 := med beta (nxt l nf) in let xf := med beta nf in
  mapply (dmat (fa pol x1) (fb pol x1)) (front pol lam beta l nf t)
  = mapply (chain pol lam beta l) (mapply (dmat (fa pol xf) (fb pol xf)) (t, RtoC 0)).
Proof.
  intros Hpol Hb H Hf. cbv zeta. induction l as [|[n d] r IH]; [cbn [chain nxt]; now rewrite mapply_mid|].
  specialize (IH (Forall_inv_tail H)). assert (Hr := Forall_inv_tail H). apply Forall_inv in H. cbn [fst] in H.
  cbn [nxt chain]. rewrite front_cons.
  destruct (passive_med pol beta n Hpol Hb H) as (P1 & P2 & _).
  rewrite nmat_dmat by assumption. rewrite mapply_mul, <- IH. f_equal.
  assert (Hd : passive beta (nxt r nf)).
  { destruct r as [|[n' d'] r']; [exact Hf|]. exact (Forall_inv Hr). }
  destruct (continuity pol (med beta n) (med beta (nxt r nf)) (front pol lam beta r nf t)
              (passive_den pol beta n (nxt r nf) Hpol Hb H Hd) P1 P2) as [C1 C2].
  set (u := mapply (jmat pol (med beta n) (med beta (nxt r nf))) (front pol lam beta r nf t)) in *.
  clearbody u. unfold mapply, dmat. cbn [m00 m01 m10 m11 fst snd].
  f_equal.
  - transitivity (fa pol (med beta n) * (fst u + snd u)); [ring|]. rewrite C1. ring.
  - transitivity (fb pol (med beta n) * (fst u - snd u)); [ring|]. rewrite C2. ring.
Qed.
(** Twice a0 b0 M00, in terms of the chain of characteristic matrices. *)
Lemma mt_chain pol lam beta n0 l nf : valid_pol pol -> (0 <= beta)%R ->
  passive beta n0 -> Forall (fun x => passive beta (fst x)) l -> passive beta nf ->
  let a0 := fa pol (med beta n0) in let b0 := fb pol (med beta n0) in
  let af := fa pol (med beta nf) in let bf := fb pol (med beta nf) in
  let k := chain pol lam beta l in
  (a0 * b0 + a0 * b0) * m00 (mt pol lam beta n0 l nf)
  = b0 * (m00 k * af + m01 k * bf) + a0 * (m10 k * af + m11 k * bf).
Proof.
  intros Hpol Hb H0 H Hf. cbv zeta.
  assert (HF := dmat_front pol lam beta l nf 1 Hpol Hb H Hf). cbv zeta in HF.
  assert (Hn : passive beta (nxt l nf)).
  { destruct l as [|[n' d'] r']; [exact Hf|]. exact (Forall_inv H). }
  destruct (passive_med pol beta n0 Hpol Hb H0) as (P1 & P2 & _).
  destruct (continuity pol (med beta n0) (med beta (nxt l nf)) (front pol lam beta l nf 1)
              (passive_den pol beta n0 (nxt l nf) Hpol Hb H0 Hn) P1 P2) as [C1 C2].
  rewrite <- mt_apply, mt_col in C1, C2. cbn [fst snd] in C1, C2.
  set (m := mt pol lam beta n0 l nf) in *. set (k := chain pol lam beta l) in *.
  set (u := front pol lam beta l nf 1) in *.
  set (a0 := fa pol (med beta n0)) in *. set (b0 := fb pol (med beta n0)) in *.
  set (af := fa pol (med beta nf)) in *. set (bf := fb pol (med beta nf)) in *.
  set (a1 := fa pol (med beta (nxt l nf))) in *. set (b1 := fb pol (med beta (nxt l nf))) in *.
  clearbody m k u a0 b0 af bf a1 b1.
  assert (F1 := f_equal fst HF). assert (F2 := f_equal snd HF). clear HF.
  unfold mapply, dmat in F1, F2. cbn [m00 m01 m10 m11 fst snd] in F1, F2.
  assert (G1 : a0 * (m00 m + m10 m) = m00 k * af + m01 k * bf).
  { transitivity (a0 * (m00 m * 1 + m10 m * 1)); [ring|]. rewrite C1.
    transitivity (a1 * fst u + a1 * snd u); [ring|]. rewrite F1. ring. }
  assert (G2 : b0 * (m00 m - m10 m) = m10 k * af + m11 k * bf).
  { transitivity (b0 * (m00 m * 1 - m10 m * 1)); [ring|]. rewrite C2.
    transitivity (b1 * fst u + - b1 * snd u); [ring|]. rewrite F2. ring. }
  rewrite <- G1, <- G2. ring.
Qed.
Lemma mt_reverse pol lam beta n0 l nf : valid_pol pol -> (0 <= beta)%R ->
  passive beta n0 -> Forall (fun x => passive beta (fst x)) l -> passive beta nf ->
  fa pol (med beta n0) * fb pol (med beta n0) * m00 (mt pol lam beta n0 l nf)
  = fa pol (med beta nf) * fb pol (med beta nf) * m00 (mt pol lam beta nf (rev l) n0).
Proof.
  intros Hpol Hb H0 H Hf.
  assert (E1 := mt_chain pol lam beta n0 l nf Hpol Hb H0 H Hf).
  assert (E2 := mt_chain pol lam beta nf (rev l) n0 Hpol Hb Hf (Forall_rev H) H0).
  cbv zeta in E1, E2. rewrite chain_rev in E2. unfold sw in E2. cbn [m00 m01 m10 m11] in E2.
  assert (H2 := two_neq). rewrite two_def in H2.
  set (k := chain pol lam beta l) in *.
  set (a0 := fa pol (med beta n0)) in *. set (b0 := fb pol (med beta n0)) in *.
  set (af := fa pol (med beta nf)) in *. set (bf := fb pol (med beta nf)) in *.
  set (m := m00 (mt pol lam beta n0 l nf)) in *. set (m' := m00 (mt pol lam beta nf (rev l) n0)) in *.
  clearbody k a0 b0 af bf m m'.
  assert (E : (a0 * b0 + a0 * b0) * m = (af * bf + af * bf) * m') by (rewrite E1, E2; ring).
  replace (a0 * b0 * m) with ((a0 * b0 + a0 * b0) * m / (1 + 1)) by (field; exact H2).
  rewrite E. field. exact H2.
Qed.
Lemma fafb pol beta n : valid_pol pol -> fa pol (med beta n) * fb pol (med beta n) = n * cos_in beta n.
Proof.
  intros [->| ->]; unfold fa, fb, med; cbn [String.eqb Ascii.eqb Bool.eqb fst snd]; ring.
Qed.
Lemma Cmod_real (z : C) : Im z = 0%R -> (0 < Re z)%R -> Cmod z = Re z.
Proof.
  intros Hi Hr. replace z with (RtoC (Re z)) by (apply C_eq; cbn; congruence).
  rewrite Cmod_R. cbn. apply Rabs_pos_eq. lra.
Qed.
Lemma rev_stack_n n0 l nf : rev (stack_n n0 l nf) = stack_n nf (rev l) n0.
Proof.
  unfold stack_n. rewrite app_comm_cons, rev_app_distr. cbn [rev app].
  rewrite <- map_rev. reflexivity.
Qed.
Lemma rev_stack_d l : rev (stack_d l) = stack_d (rev l).
Proof.
  unfold stack_d. rewrite app_comm_cons, rev_app_distr. cbn [rev app].
  rewrite <- map_rev. reflexivity.
Qed.
Lemma reverse_stack pol (n0 th lam : R) l (nf : C) : valid_pol pol -> (0 < n0)%R -> (0 <= th < PI / 2)%R ->
  let beta := (n0 * sin th)%R in nf <> 0 ->
  coh_tmm_reverse pol (stack_n n0 l nf) (stack_d l) (sin th) (cos th) lam
  = Ok (out pol lam beta nf (cos_in beta nf) (rev l) n0).
Proof.
  intros Hpol Hn Hth beta Hf.
  assert (HB : RtoC n0 * RtoC (sin th) = beta) by (unfold beta; now rewrite RtoC_mult).
  unfold coh_tmm_reverse. rewrite rev_stack_n, rev_stack_d.
  assert (HL := last_stack n0 l nf n0).
  unfold stack_n at 1. fold (stack_n n0 l nf). rewrite HL, HB.
  apply (coh_tmm_stack pol nf (sin_in beta nf) (cos_in beta nf) (rev l) n0 lam beta Hpol).
  unfold sin_in. field. exact Hf.
Qed.

(** ** The transmittance is the same in both directions, whatever passive layers lie
    between two transparent media. *)
Theorem C42_reciprocity_partial : forall pol (n0 th lam : R) (l : list (C * R)) (nf : C),
  valid_pol pol -> (0 < lam)%R -> (0 < n0)%R -> (0 <= th < PI / 2)%R ->
  let beta := (n0 * sin th)%R in
  Forall (fun x => passive beta (fst x) /\ (0 <= snd x)%R /\ benign pol lam beta x) l ->
  transparent beta nf ->
  exists d d',
    coh_tmm pol (stack_n n0 l nf) (stack_d l) (sin th) (cos th) lam = Ok d /\
    coh_tmm_reverse pol (stack_n n0 l nf) (stack_d l) (sin th) (cos th) lam = Ok d' /\
    cd_T d' = cd_T d.
Proof.
  intros pol n0 th lam l nf Hpol Hl Hn Hth beta H Hf.
  destruct (incident_transparent n0 th Hn Hth) as [Hb H0]. fold beta in Hb, H0.
  assert (Hc0 := cos_in_angle n0 th Hn Hth). fold beta in Hc0.
  assert (HB : RtoC n0 * RtoC (sin th) = beta) by (unfold beta; now rewrite RtoC_mult).
  assert (Hnf : nf <> 0) by (apply C_neq_Re; destruct Hf as (_ & Q & _); lra).
  exists (out pol lam beta n0 (cos th) l nf), (out pol lam beta nf (cos_in beta nf) (rev l) n0).
  split; [exact (coh_tmm_stack pol n0 (sin th) (cos th) l nf lam beta Hpol HB)|].
  split; [now apply reverse_stack|].
  rewrite <- Hc0. unfold out. cbn [cd_T].
  rewrite !(Tv_fl pol beta), !fl_forward, !A0_cond by exact Hpol.
  assert (Hp0 := transparent_passive _ _ H0). assert (Hpf := transparent_passive _ _ Hf).
  assert (HP : Forall (fun x => passive beta (fst x)) l) by (eapply Forall_impl; [|exact H]; now intros x [Q _]).
  assert (HM := mt_reverse pol lam beta n0 l nf Hpol Hb Hp0 HP Hpf).
  assert (Hm := m00_nonzero pol lam beta n0 l nf Hpol Hl Hb H0 H Hpf).
  rewrite !fafb in HM by exact Hpol.
  destruct (passive_k beta n0 Hb Hp0) as [(K0 & _ & I0) _]. destruct (passive_k beta nf Hb Hpf) as [(Kf & _ & If) _].
  specialize (I0 (proj1 H0)). specialize (If (proj1 Hf)).
  destruct (transparent_cond pol beta n0 Hpol Hb H0) as (_ & J0 & C0).
  destruct (transparent_cond pol beta nf Hpol Hb Hf) as (_ & Jf & Cf).
  assert (R0 : Re (cond pol (med beta n0)) = Re (n0 * cos_in beta n0)).
  { rewrite C0, Re_mult, J0. cbn. ring. }
  assert (Rf : Re (cond pol (med beta nf)) = Re (nf * cos_in beta nf)).
  { rewrite Cf, Re_mult, Jf. destruct Hf as (Q & _). cbn. ring. }
  rewrite R0, Rf. clear R0 Rf C0 Cf J0 Jf.
  assert (N0 : Cmod (n0 * cos_in beta n0) = Re (n0 * cos_in beta n0)) by (now apply Cmod_real).
  assert (Nf : Cmod (nf * cos_in beta nf) = Re (nf * cos_in beta nf)) by (now apply Cmod_real).
  set (m := m00 (mt pol lam beta n0 l nf)) in *. set (m' := m00 (mt pol lam beta nf (rev l) n0)) in *.
  set (k0 := RtoC n0 * cos_in beta n0) in *. set (kf := nf * cos_in beta nf) in *.
  clearbody m m' k0 kf.
  assert (Hm' : m' <> 0).
  { intros E. rewrite E in HM. replace (kf * 0) with (RtoC 0) in HM by ring.
    apply (f_equal Cmod) in HM. rewrite Cmod_mult, N0, Cmod_0 in HM.
    assert (Q := proj1 (Cmod_gt_0 m) Hm). nra. }
  assert (M := f_equal Cmod HM). rewrite !Cmod_mult, N0, Nf in M.
  assert (Q1 : (0 < Cmod m)%R) by now apply Cmod_gt_0. assert (Q2 : (0 < Cmod m')%R) by now apply Cmod_gt_0.
  unfold Cdiv. rewrite !Cmod_mult, !Cmod_inv, Cmod_1 by assumption.
  replace (Cmod m') with (Re k0 * Cmod m / Re kf)%R by (rewrite M; field; lra).
  field. lra.
Qed.
(** ** Lossless stacks: R + T = 1, for every number of layers, thickness and angle below
    total reflection, and both directions reflect and transmit alike. *)
Theorem C42_lossless : forall pol (n0 th lam : R) (l : list (C * R)) (nf : C),
  valid_pol pol -> (0 < lam)%R -> (0 < n0)%R -> (0 <= th < PI / 2)%R ->
  let beta := (n0 * sin th)%R in
  Forall (fun x => transparent beta (fst x) /\ (0 <= snd x)%R) l -> transparent beta nf ->
  exists d d',
    coh_tmm pol (stack_n n0 l nf) (stack_d l) (sin th) (cos th) lam = Ok d /\
    coh_tmm_reverse pol (stack_n n0 l nf) (stack_d l) (sin th) (cos th) lam = Ok d' /\
    (cd_R d + cd_T d = 1)%R /\ cd_T d' = cd_T d /\ cd_R d' = cd_R d /\
    (0 <= cd_R d < 1)%R.
Proof.
  intros pol n0 th lam l nf Hpol Hl Hn Hth beta H Hf.
  assert (Main : forall n0 l nf, transparent beta n0 -> transparent beta nf -> (0 <= beta)%R ->
    Forall (fun x => transparent beta (fst x) /\ (0 <= snd x)%R) l ->
    (cd_R (out pol lam beta n0 (cos_in beta n0) l nf) + cd_T (out pol lam beta n0 (cos_in beta n0) l nf) = 1)%R).
  { clear l nf H Hf. intros n l nf H0 Hf Hb H.
    assert (HM : Forall (medium_ok pol lam beta) l).
    { eapply Forall_impl; [|exact H]. intros x [H1 H2]. now apply transparent_ok. }
    destruct (powers_out pol lam beta n l nf Hpol Hl Hb H0 HM (transparent_passive _ _ Hf)) as (_ & HE & HT).
    rewrite fluxes_const, <- (fluxes_last pol lam beta l nf) in HE
      by (auto; now apply transparent_passive).
    rewrite <- HE in HT. rewrite HT. unfold out. cbn [cd_R cd_power_entering].
    destruct (transparent_cond pol beta n Hpol Hb H0) as (HI & _).
    rewrite pev_fl, fl_incident by assumption. unfold R_from_r.
    assert (Ha : (0 < A0 pol n (cos_in beta n))%R).
    { rewrite A0_cond by exact Hpol.
      now destruct (passive_med pol beta n Hpol Hb (transparent_passive _ _ H0)) as (_ & _ & P & _). }
    rewrite <- (A0_cond pol beta n Hpol). field. lra. }
  destruct (incident_transparent n0 th Hn Hth) as [Hb H0]. fold beta in Hb, H0.
  assert (Hc0 := cos_in_angle n0 th Hn Hth). fold beta in Hc0.
  assert (HB : RtoC n0 * RtoC (sin th) = beta) by (unfold beta; now rewrite RtoC_mult).
  assert (Hnf : nf <> 0) by (apply C_neq_Re; destruct Hf as (_ & Q & _); lra).
  assert (HM : Forall (fun x => passive beta (fst x) /\ (0 <= snd x)%R /\ benign pol lam beta x) l).
  { eapply Forall_impl; [|exact H]. intros x [H1 H2].
    destruct (transparent_ok pol lam beta x Hl Hb H1 H2) as (Q1 & Q2 & Q3). auto. }
  destruct (C42_reciprocity_partial pol n0 th lam l nf Hpol Hl Hn Hth HM Hf) as (d & d' & E1 & E2 & E3).
  destruct (C42_balance_partial pol n0 th lam l nf Hpol Hl Hn Hth HM (transparent_passive _ _ Hf))
    as (d1 & A & F1 & _ & _ & _ & _ & _ & _ & _ & F2 & F3).
  rewrite E1 in F1. injection F1 as <-.
  assert (O1 := coh_tmm_stack pol n0 (sin th) (cos th) l nf lam beta Hpol HB). cbv zeta in O1.
  fold (out pol lam beta n0 (cos th) l nf) in O1. rewrite E1 in O1. injection O1 as O1.
  assert (O2 := reverse_stack pol n0 th lam l nf Hpol Hn Hth Hnf). cbv zeta in O2. fold beta in O2.
  rewrite E2 in O2. injection O2 as O2.
  assert (S1 := Main n0 l nf H0 Hf Hb H). assert (S2 := Main nf (rev l) n0 Hf H0 Hb (Forall_rev H)).
  rewrite Hc0, <- O1 in S1. rewrite <- O2 in S2.
  exists d, d'. repeat split; try assumption; try lra; apply F2.
Qed.

(** Unpolarised light: reflectance and transmittance are fractions of the incident power that
    do not exceed it together, and account for all of it when nothing absorbs. *)
Theorem C42_unpolarised_partial : forall (n0 th lam : R) (l : list (C * R)) (nf : C),
  (0 < lam)%R -> (0 < n0)%R -> (0 <= th < PI / 2)%R ->
  let beta := (n0 * sin th)%R in
  Forall (fun x => passive beta (fst x) /\ (0 <= snd x)%R /\ benign "s" lam beta x /\ benign "p" lam beta x) l ->
  passive beta nf ->
  exists Ru Tu, unpolarized_RT (stack_n n0 l nf) (stack_d l) (sin th) (cos th) lam = Ok (Ru, Tu) /\
    (0 <= Ru < 1)%R /\ (0 < Tu)%R /\ (Ru + Tu <= 1)%R /\
    (Forall (fun x => transparent beta (fst x)) l -> transparent beta nf -> (Ru + Tu = 1)%R).
Proof.
  intros n0 th lam l nf Hl Hn Hth beta H Hf.
  assert (B : forall pol, valid_pol pol ->
    Forall (fun x => passive beta (fst x) /\ (0 <= snd x)%R /\ benign pol lam beta x) l ->
    exists d, coh_tmm pol (stack_n n0 l nf) (stack_d l) (sin th) (cos th) lam = Ok d /\
      (0 <= cd_R d < 1)%R /\ (0 < cd_T d)%R /\ (cd_R d + cd_T d <= 1)%R /\
      (Forall (fun x => transparent beta (fst x)) l -> transparent beta nf -> (cd_R d + cd_T d = 1)%R)).
  { intros pol Hpol HM.
    destruct (C42_balance_partial pol n0 th lam l nf Hpol Hl Hn Hth HM Hf)
      as (d & A & E & _ & LA & FA & TA & HA & LT & _ & R1 & T1).
    exists d. split; [exact E|]. split; [exact R1|]. split; [lra|]. split.
    - rewrite <- HA, <- LT, <- TA. destruct A as [|x A]; [cbn in LA; lia|]. cbn [hd total].
      destruct A as [|y A]; [cbn in LA; lia|].
      assert (Q : forall m, m <> [] -> Forall (fun x => 0 <= x)%R m -> (last m 0 <= total m)%R).
      { clear. induction m as [|u m IH]; [congruence|]. intros _ F. destruct m as [|v m]; [cbn; lra|].
        specialize (IH ltac:(discriminate) (Forall_inv_tail F)).
        change (last (u :: v :: m) 0%R) with (last (v :: m) 0%R).
        change (total (u :: v :: m)) with (u + total (v :: m))%R.
        assert (0 <= u)%R by exact (Forall_inv F). lra. }
      specialize (Q (y :: A) ltac:(discriminate) (Forall_inv_tail FA)).
      change (last (x :: y :: A) 0%R) with (last (y :: A) 0%R). lra.
    - intros F1 F2.
      destruct (C42_lossless pol n0 th lam l nf Hpol Hl Hn Hth) as (d1 & d2 & E1 & _ & S & _); [|exact F2|].
      + clear - F1 HM. fold beta. induction l as [|x l IH]; [constructor|].
        constructor; [split; [exact (Forall_inv F1)|exact (proj1 (proj2 (Forall_inv HM)))]|].
        apply IH; [exact (Forall_inv_tail HM)|exact (Forall_inv_tail F1)].
      + rewrite E in E1. injection E1 as <-. exact S. }
  destruct (B "s"%string) as (ds & Es & S1 & S2 & S3 & S4); [now left| |].
  { eapply Forall_impl; [|exact H]. intros x (A1 & A2 & A3 & A4). auto. }
  destruct (B "p"%string) as (dp & Ep & P1 & P2 & P3 & P4); [now right| |].
  { eapply Forall_impl; [|exact H]. intros x (A1 & A2 & A3 & A4). auto. }
  exists ((cd_R ds + cd_R dp) / 2)%R, ((cd_T ds + cd_T dp) / 2)%R.
  split; [unfold unpolarized_RT; rewrite Es; cbn [bindR]; rewrite Ep; reflexivity|].
  split; [lra|]. split; [lra|]. split; [lra|]. intros F1 F2. specialize (S4 F1 F2). specialize (P4 F1 F2). lra.
Qed.

(** ** C43: Stokes relations at one interface *)
Theorem C43_stokes : forall pol (n1 n2 c1 c2 : C),
  valid_pol pol -> n1 * c1 <> 0 -> n2 * c2 <> 0 ->
  (if String.eqb pol "s" then n1 * c1 + n2 * c2 else n2 * c1 + n1 * c2) <> 0 ->
  exists r12 r21 t12 t21,
    interface_r pol n1 n2 c1 c2 = Ok r12 /\ interface_r pol n2 n1 c2 c1 = Ok r21 /\
    interface_t pol n1 n2 c1 c2 = Ok t12 /\ interface_t pol n2 n1 c2 c1 = Ok t21 /\
    r12 = - r21 /\ t12 * t21 - r12 * r21 = 1 /\
    (* the energy form, for a pair of transparent media *)
    ((Im n1 = 0 /\ Im n2 = 0 /\ Im c1 = 0 /\ Im c2 = 0 /\ 0 < Re n1 /\ 0 < Re n2 /\ 0 < Re c1 /\ 0 < Re c2)%R ->
     exists T12 T21, T_from_t pol t12 n1 n2 c1 c2 = Ok T12 /\ T_from_t pol t21 n2 n1 c2 c1 = Ok T21 /\
       (R_from_r r12 + T12 = 1)%R /\ T12 = T21 /\ (0 <= R_from_r r12 < 1)%R).
Proof.
  intros pol n1 n2 c1 c2 Hpol H1 H2 Hd. assert (H0 := two_def).
  assert (N1 : n1 <> 0) by (intros ->; apply H1; ring). assert (N2 : n2 <> 0) by (intros ->; apply H2; ring).
  assert (M1 : c1 <> 0) by (intros ->; apply H1; ring). assert (M2 : c2 <> 0) by (intros ->; apply H2; ring).
  destruct Hpol as [->| ->]; cbn [String.eqb Ascii.eqb Bool.eqb] in Hd;
    do 4 eexists; unfold interface_r, interface_t; cbn [String.eqb Ascii.eqb Bool.eqb];
    do 4 (split; [reflexivity|]).
  - assert (Hd' : n2 * c2 + n1 * c1 <> 0) by (now rewrite Cplus_comm).
    rewrite two_def. split; [field; auto|]. split; [field; auto|].
    intros (I1 & I2 & I3 & I4 & P1 & P2 & P3 & P4).
    do 2 eexists. unfold T_from_t. cbn [String.eqb Ascii.eqb Bool.eqb].
    split; [reflexivity|]. split; [reflexivity|].
    replace n1 with (RtoC (Re n1)) by (apply C_eq; cbn; congruence).
    replace n2 with (RtoC (Re n2)) by (apply C_eq; cbn; congruence).
    replace c1 with (RtoC (Re c1)) by (apply C_eq; cbn; congruence).
    replace c2 with (RtoC (Re c2)) by (apply C_eq; cbn; congruence).
    set (a := Re n1) in *. set (b := Re n2) in *. set (u := Re c1) in *. set (v := Re c2) in *.
    clearbody a b u v.
    assert (D : (0 < a * u + b * v)%R) by nra.
    replace ((RtoC 1 + RtoC 1) * a * u / (a * u + b * v)) with (RtoC (2 * a * u / (a * u + b * v))).
    2:{ rewrite RtoC_div by lra. rewrite !RtoC_plus, !RtoC_mult, two_def. reflexivity. }
    replace ((RtoC 1 + RtoC 1) * b * v / (b * v + a * u)) with (RtoC (2 * b * v / (a * u + b * v))).
    2:{ rewrite RtoC_div by lra. rewrite !RtoC_plus, !RtoC_mult, two_def, (Cplus_comm (b * v)). reflexivity. }
    replace ((a * u - b * v) / (a * u + b * v)) with (RtoC ((a * u - b * v) / (a * u + b * v))).
    2:{ rewrite RtoC_div by lra. rewrite !RtoC_plus, !RtoC_mult, !RtoC_minus, !RtoC_mult. reflexivity. }
    rewrite !Cmod_sq. unfold R_from_r. rewrite Cmod2.
    cbn [Re Im fst snd RtoC Cmult].
    assert (E : forall x y : R, (((a * u - b * v) / (a * u + b * v)) ^ 2 + 0 ^ 2 + x = 1 -> 0 < x ->
      0 <= ((a * u - b * v) / (a * u + b * v)) ^ 2 + 0 ^ 2 < 1)%R).
    { intros x y Q1 Q2. split; [|lra]. assert (Q := pow2_ge_0 ((a * u - b * v) / (a * u + b * v))). lra. }
    assert (S1 : (((a * u - b * v) / (a * u + b * v)) ^ 2 + 0 ^ 2
       + ((2 * a * u / (a * u + b * v)) ^ 2 + 0 ^ 2) * ((b * v - 0 * 0) / (a * u - 0 * 0)) = 1)%R).
    { field. split; nra. }
    split; [exact S1|]. split; [field; repeat split; nra|].
    apply (E _ 0%R S1). replace ((b * v - 0 * 0) / (a * u - 0 * 0))%R with (b * v / (a * u))%R by (field; nra).
    apply Rmult_lt_0_compat.
    + assert (0 < 2 * a * u / (a * u + b * v))%R.
      { apply Rmult_lt_0_compat; [nra|now apply Rinv_0_lt_compat]. }
      nra.
    + apply Rmult_lt_0_compat; [nra|]. apply Rinv_0_lt_compat. nra.
  - assert (Hd' : n1 * c2 + n2 * c1 <> 0) by (now rewrite Cplus_comm).
    rewrite two_def. split; [field; auto|]. split; [field; auto|].
    intros (I1 & I2 & I3 & I4 & P1 & P2 & P3 & P4).
    do 2 eexists. unfold T_from_t. cbn [String.eqb Ascii.eqb Bool.eqb].
    split; [reflexivity|]. split; [reflexivity|].
    replace n1 with (RtoC (Re n1)) by (apply C_eq; cbn; congruence).
    replace n2 with (RtoC (Re n2)) by (apply C_eq; cbn; congruence).
    replace c1 with (RtoC (Re c1)) by (apply C_eq; cbn; congruence).
    replace c2 with (RtoC (Re c2)) by (apply C_eq; cbn; congruence).
    set (a := Re n1) in *. set (b := Re n2) in *. set (u := Re c1) in *. set (v := Re c2) in *.
    clearbody a b u v.
    assert (D : (0 < b * u + a * v)%R) by nra.
    replace ((RtoC 1 + RtoC 1) * a * u / (b * u + a * v)) with (RtoC (2 * a * u / (b * u + a * v))).
    2:{ rewrite RtoC_div by lra. rewrite !RtoC_plus, !RtoC_mult, two_def. reflexivity. }
    replace ((RtoC 1 + RtoC 1) * b * v / (a * v + b * u)) with (RtoC (2 * b * v / (b * u + a * v))).
    2:{ rewrite RtoC_div by lra. rewrite !RtoC_plus, !RtoC_mult, two_def, (Cplus_comm (a * v)). reflexivity. }
    replace ((b * u - a * v) / (b * u + a * v)) with (RtoC ((b * u - a * v) / (b * u + a * v))).
    2:{ rewrite RtoC_div by lra. rewrite !RtoC_plus, !RtoC_mult, !RtoC_minus, !RtoC_mult. reflexivity. }
    rewrite !Cmod_sq. unfold R_from_r. rewrite Cmod2.
    cbn [Re Im fst snd RtoC Cmult Cconj].
    assert (E : forall x y : R, (((b * u - a * v) / (b * u + a * v)) ^ 2 + 0 ^ 2 + x = 1 -> 0 < x ->
      0 <= ((b * u - a * v) / (b * u + a * v)) ^ 2 + 0 ^ 2 < 1)%R).
    { intros x y Q1 Q2. split; [|lra]. assert (Q := pow2_ge_0 ((b * u - a * v) / (b * u + a * v))). lra. }
    assert (S1 : (((b * u - a * v) / (b * u + a * v)) ^ 2 + 0 ^ 2
       + ((2 * a * u / (b * u + a * v)) ^ 2 + 0 ^ 2) * ((b * v - 0 * - 0) / (a * u - 0 * - 0)) = 1)%R).
    { field. split; nra. }
    split; [exact S1|]. split; [field; repeat split; nra|].
    apply (E _ 0%R S1). replace ((b * v - 0 * - 0) / (a * u - 0 * - 0))%R with (b * v / (a * u))%R by (field; nra).
    apply Rmult_lt_0_compat.
    + assert (0 < 2 * a * u / (b * u + a * v))%R.
      { apply Rmult_lt_0_compat; [nra|now apply Rinv_0_lt_compat]. }
      nra.
    + apply Rmult_lt_0_compat; [nra|]. apply Rinv_0_lt_compat. nra.
Qed.
(** Any other polarisation is refused by every function of the interface. *)
Theorem C43_polarisation : forall pol (n1 n2 c1 c2 r t : C) gi gf ns ds s0 lam,
  ~ valid_pol pol ->
  interface_r pol n1 n2 c1 c2 = Err ValueError /\ interface_t pol n1 n2 c1 c2 = Err ValueError /\
  T_from_t pol t n1 n2 c1 c2 = Err ValueError /\ power_entering_from_r pol r n1 c1 = Err ValueError /\
  interface_R pol n1 n2 c1 c2 gi gf = Err ValueError /\ interface_T pol n1 n2 c1 c2 gi = Err ValueError /\
  (forall d, coh_tmm pol ns ds s0 c1 lam <> Ok d).
Proof.
  intros pol n1 n2 c1 c2 r t gi gf ns ds s0 lam H.
  assert (Es : String.eqb pol "s" = false) by (apply String.eqb_neq; intros ->; apply H; now left).
  assert (Ep : String.eqb pol "p" = false) by (apply String.eqb_neq; intros ->; apply H; now right).
  assert (I : forall a b u v, interface_t pol a b u v = Err ValueError).
  { intros. unfold interface_t. now rewrite Es, Ep. }
  unfold interface_R, interface_T. rewrite I. unfold interface_r, T_from_t, power_entering_from_r.
  rewrite Es, Ep. repeat split.
  intros d. unfold coh_tmm. destruct (negb _); [discriminate|]. destruct (length ds =? 0)%nat; [discriminate|].
  destruct (negb _); [discriminate|]. destruct ns as [|m0 [|m1 ns]]; [discriminate| |].
  - destruct (Rlt_dec _ _); discriminate.
  - destruct (Rlt_dec _ _); [discriminate|]. destruct (finite_all _); cbn [bindR]; [|discriminate].
    rewrite I. discriminate.
Qed.

(** ** Examples *)
(** Light at 30 degrees from air through 100 nm of index 2 + 0.1 i and 50 nm of index 3 onto
    index 4 + 0.1 i, at 500 nm: the hypotheses of [C42_balance_partial]. *)
Example C42_example :
  let beta := (1 * sin (PI / 6))%R in
  Forall (fun x => passive beta (fst x) /\ (0 <= snd x)%R /\ benign "s" 500 beta x)
    [((2, 0.1)%R : C, 100%R); ((3, 0)%R : C, 50%R)] /\ passive beta (4, 0.1)%R.
Proof.
  cbv zeta. rewrite sin_PI6. set (beta := (1 * (1 / 2))%R).
  assert (Hb : (0 <= beta)%R) by (unfold beta; lra).
  assert (P1 : passive beta (2, 0.1)%R) by (unfold passive, beta; cbn; lra).
  assert (P2 : passive beta (3, 0)%R) by (unfold passive, beta; cbn; lra).
  split; [|unfold passive, beta; cbn; lra].
  apply Forall_cons; [|apply Forall_cons; [|constructor]]; cbn [fst snd].
  - split; [exact P1|]. split; [lra|]. right; left. split; [reflexivity|].
    destruct (passive_k beta _ Hb P1) as [(K1 & K2 & _) K]. cbn [fst].
    set (k := (2, 0.1)%R * cos_in beta (2, 0.1)%R) in *. clearbody k.
    assert (Q := f_equal Im K). assert (Q' := f_equal Re K). rewrite Im_mult in Q. rewrite Re_mult in Q'.
    unfold beta in Q, Q'. cbn [Re Im fst snd Cmult Cminus Cplus Copp RtoC] in Q, Q'.
    rewrite Rabs_pos_eq by lra. fold (Im k) in *. fold (Re k) in *.
    set (x := Re k) in *. set (y := Im k) in *. clearbody x y.
    destruct (Rle_dec y (100 * x)) as [G|G]; [exact G|]. exfalso. nra.
  - split; [exact P2|]. split; [lra|]. right; left. split; [reflexivity|].
    destruct (passive_k beta _ Hb P2) as [(K1 & K2 & K3) K]. cbn [fst].
    rewrite K3 by reflexivity. rewrite Rabs_R0. lra.
Qed.
(** Air, one quarter-wave coating, glass: the hypotheses of [C42_lossless] and
    [C42_reciprocity_partial]. *)
Example C42_lossless_example :
  let beta := (1 * sin (PI / 6))%R in
  Forall (fun x => transparent beta (fst x) /\ (0 <= snd x)%R) [((1.38, 0)%R : C, 100%R)] /\
  transparent beta (1.52, 0)%R.
Proof.
  cbv zeta. rewrite sin_PI6. split; [|unfold transparent; cbn; lra].
  apply Forall_cons; [|constructor]. unfold transparent. cbn. lra.
Qed.
Example C43_example : interface_r "s" 1 2 1 1 = Ok (RtoC (- (1 / 3))) /\
  interface_t "p" 1 3 1 1 = Ok (RtoC (1 / 2)).
Proof.
  unfold interface_r, interface_t. cbn [String.eqb Ascii.eqb Bool.eqb].
  split; f_equal; apply C_eq; unfold Cdiv, Cinv; cbn [Re Im fst snd Cmult Cminus Cplus Copp RtoC]; field.
Qed.
Example C42_unpolarised_example :
  let beta := (1 * sin (PI / 6))%R in
  Forall (fun x => passive beta (fst x) /\ (0 <= snd x)%R /\ benign "s" 500 beta x /\ benign "p" 500 beta x)
    [((2, 0)%R : C, 100%R); ((3, 0)%R : C, 50%R)] /\ passive beta (4, 0)%R /\
  Forall (fun x => transparent beta (fst x)) [((2, 0)%R : C, 100%R); ((3, 0)%R : C, 50%R)] /\
  transparent beta (4, 0)%R.
Proof.
  cbv zeta. rewrite sin_PI6. set (beta := (1 * (1 / 2))%R).
  assert (Hb : (0 <= beta)%R) by (unfold beta; lra).
  assert (T : forall x, (1 <= x)%R -> transparent beta (x, 0)%R) by (intros; unfold transparent, beta; cbn; lra).
  assert (B : forall pol x d, (1 <= x)%R -> (0 <= d)%R -> benign pol 500 beta ((x, 0)%R : C, d)).
  { intros pol x d Hx Hd. now apply (transparent_ok pol 500 beta ((x, 0)%R : C, d) ltac:(lra) Hb (T x Hx)). }
  split; [|split; [apply transparent_passive, T; lra|split; [|apply T; lra]]].
  - apply Forall_cons; [|apply Forall_cons; [|constructor]]; cbn [fst snd];
      (split; [apply transparent_passive, T; lra|]); (split; [lra|]); split; apply B; lra.
  - apply Forall_cons; [apply T; lra|apply Forall_cons; [apply T; lra|constructor]].
Qed.

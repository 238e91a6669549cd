(** C172: the ellipsometric parameters. *)
From Coq Require Import Reals Lra Lia String List Arith Bool Psatz.
From Coquelicot Require Import Complex.
From Verif Require Import Common TmmModel TmmProps StackModel RatModel EllModel.
From Coq Require Import List.
Import ListNotations.
Open Scope R_scope.
Open Scope list_scope.

(** * The angle of a complex number *)
Lemma Cmod_parts z : Cmod z = sqrt (Re z ^ 2 + Im z ^ 2).
Proof. reflexivity. Qed.
Lemma root_ratio re im : re <> 0 -> sqrt (re ^ 2 + im ^ 2) = Rabs re * sqrt (1 + (im / re) ^ 2).
Proof.
  intros H. rewrite <- (sqrt_Rsqr_abs re). rewrite <- sqrt_mult_alt by apply Rle_0_sqr.
  f_equal. unfold Rsqr. field. exact H.
Qed.
Lemma angle_polar z : (Cmod z * cos (angle z), Cmod z * sin (angle z)) = z.
Proof.
  rewrite Cmod_parts. unfold angle. destruct z as [re im]. cbn [Re Im fst snd].
  assert (Q : forall x, 0 < sqrt (1 + x ^ 2)) by (intros x; apply sqrt_lt_R0; nra).
  assert (CA : re <> 0 -> cos (atan (im / re)) = / sqrt (1 + (im / re) ^ 2)).
  { intros _. rewrite cos_atan. unfold Rsqr, Rdiv. rewrite Rmult_1_l. do 2 f_equal. ring. }
  assert (SA : re <> 0 -> sin (atan (im / re)) = (im / re) / sqrt (1 + (im / re) ^ 2)).
  { intros _. rewrite sin_atan. unfold Rsqr. do 2 f_equal. ring. }
  assert (P := Q (im / re)).
  destruct (Rlt_dec 0 re) as [H|H].
  { rewrite CA, SA, root_ratio, Rabs_pos_eq by lra. f_equal; field; lra. }
  destruct (Rlt_dec re 0) as [H'|H'].
  { destruct (Rle_dec 0 im) as [G|G].
    - rewrite neg_cos, neg_sin, CA, SA, root_ratio, Rabs_left by lra. f_equal; field; lra.
    - unfold Rminus at 1 2. rewrite cos_plus, sin_plus, cos_neg, sin_neg, cos_PI, sin_PI, CA, SA, root_ratio, Rabs_left by lra.
      f_equal; field; lra. }
  assert (re = 0) by lra. subst re.
  destruct (Rlt_dec 0 im) as [G|G].
  { rewrite cos_PI2, sin_PI2. replace (0 ^ 2 + im ^ 2) with (Rsqr im) by (unfold Rsqr; ring).
    rewrite sqrt_Rsqr by lra. f_equal; ring. }
  destruct (Rlt_dec im 0) as [G'|G'].
  { rewrite cos_neg, sin_neg, cos_PI2, sin_PI2. replace (0 ^ 2 + im ^ 2) with (Rsqr im) by (unfold Rsqr; ring).
    rewrite sqrt_Rsqr_abs, Rabs_left by lra. f_equal; ring. }
  assert (im = 0) by lra. subst im. replace (0 ^ 2 + 0 ^ 2) with 0 by ring. rewrite sqrt_0. f_equal; ring.
Qed.
Lemma angle_range z : - PI < angle z <= PI.
Proof.
  unfold angle. set (a := atan (Im z / Re z)). assert (B : - PI / 2 < a < PI / 2) by apply atan_bound.
  assert (P := PI_RGT_0).
  destruct (Rlt_dec 0 (Re z)); [lra|]. destruct (Rlt_dec (Re z) 0) as [L|L].
  - destruct (Rle_dec 0 (Im z)) as [G|G].
    + assert (a <= 0); [|lra]. unfold a.
      destruct (Req_dec (Im z) 0) as [->|N]; [unfold Rdiv; rewrite Rmult_0_l, atan_0; lra|].
      rewrite <- atan_0. apply Rlt_le, atan_increasing.
      apply Ropp_lt_cancel. rewrite Ropp_0. unfold Rdiv. rewrite Ropp_mult_distr_r.
      apply Rmult_lt_0_compat; [lra|]. rewrite <- Rinv_opp. apply Rinv_0_lt_compat. lra.
    + assert (0 < a); [|lra]. unfold a. rewrite <- atan_0. apply atan_increasing.
      replace (Im z / Re z) with ((- Im z) * / - Re z) by (field; lra).
      apply Rmult_lt_0_compat; [lra|]. apply Rinv_0_lt_compat. lra.
  - destruct (Rlt_dec 0 (Im z)); [lra|]. destruct (Rlt_dec (Im z) 0); lra.
Qed.
(** The sign of the angle is that of the imaginary part. *)
Lemma angle_sign z : (0 < Im z -> 0 < angle z) /\ (Im z < 0 -> angle z < 0)
  /\ (Im z = 0 -> 0 <= angle z).
Proof.
  assert (R_ := angle_range z). assert (E := angle_polar z).
  assert (S_ : Im z = Cmod z * sin (angle z)) by (rewrite <- E at 1; reflexivity).
  assert (M := Cmod_ge_0 z).
  repeat split; intros H.
  - destruct (Rlt_dec 0 (angle z)) as [|N]; [assumption|exfalso].
    assert (sin (angle z) <= 0); [|nra].
    rewrite <- (Ropp_involutive (angle z)), sin_neg.
    assert (0 <= sin (- angle z)); [|lra]. apply sin_ge_0; lra.
  - destruct (Rlt_dec (angle z) 0) as [|N]; [assumption|exfalso].
    assert (0 <= sin (angle z)) by (apply sin_ge_0; lra). nra.
  - unfold angle. rewrite H. unfold Rdiv. rewrite Rmult_0_l, atan_0. assert (P := PI_RGT_0).
    destruct (Rlt_dec 0 (Re z)); [lra|]. destruct (Rlt_dec (Re z) 0); [destruct (Rle_dec 0 0); lra|].
    destruct (Rlt_dec 0 0); [lra|]. destruct (Rlt_dec 0 0); lra.
Qed.

(** * The folding of Delta *)
Lemma fold_delta_abs d : - PI < d <= PI -> fold_delta d = 180 + Rabs d / PI * 180.
Proof.
  intros H. unfold fold_delta. assert (P := PI_RGT_0).
  assert (E : - d / (PI / 180) = - (d / PI * 180)) by (field; lra). rewrite E. clear E.
  assert (0 <= d -> 0 <= d / PI * 180).
  { intros G. apply Rmult_le_pos; [|lra]. unfold Rdiv. apply Rmult_le_pos; [lra|]. apply Rlt_le, Rinv_0_lt_compat. lra. }
  assert (d < 0 -> d / PI * 180 < 0).
  { intros G. apply Ropp_lt_cancel. rewrite Ropp_0. replace (- (d / PI * 180)) with ((- d) * (/ PI * 180)) by (field; lra).
    apply Rmult_lt_0_compat; [lra|]. apply Rmult_lt_0_compat; [apply Rinv_0_lt_compat|]; lra. }
  destruct (Rlt_dec d 0) as [G|G].
  - rewrite Rabs_left by assumption. replace (- d / PI * 180) with (- (d / PI * 180)) by (field; lra).
    destruct (Rlt_dec 0 (- (d / PI * 180))); destruct (Rlt_dec _ 180); lra.
  - rewrite Rabs_pos_eq by lra. destruct (Rlt_dec 0 (- (d / PI * 180))); destruct (Rlt_dec _ 180); lra.
Qed.

(** * What an ellipsometer means by psi and Delta *)
(** The complex number tan(psi) exp(i Delta), angles in degrees. *)
Definition degrees (x : R) : R := x * PI / 180.
Definition rho (psi Delta : R) : C := (tan (degrees psi) * cos (degrees Delta), tan (degrees psi) * sin (degrees Delta)).
Definition same_or_conj (z w : C) : Prop := (Im z <= 0 -> w = z) /\ (0 <= Im z -> w = Cconj z).

Lemma Cmod_opp_div (a b : C) : Cmod (- a / b)%C = Cmod (a / b)%C.
Proof. replace (- a / b)%C with (- (a / b))%C by (unfold Cdiv; ring). apply Cmod_opp. Qed.
Lemma ratio_spec (z : C) :
  let psi := atan (Cmod z) / (PI / 180) in let D := fold_delta (angle (- z)%C) in
  0 <= psi < 90 /\ 180 <= D <= 360 /\ tan (degrees psi) = Cmod z /\ same_or_conj z (rho psi D).
Proof.
  intros psi D. assert (P := PI_RGT_0). assert (R_ := angle_range (- z)%C).
  assert (DP : degrees psi = atan (Cmod z)) by (unfold degrees, psi; field; lra).
  assert (AB : 0 <= atan (Cmod z) < PI / 2).
  { split; [|apply atan_bound]. destruct (Cmod_ge_0 z) as [H| <-]; [|rewrite atan_0; lra].
    apply Rlt_le. rewrite <- atan_0. now apply atan_increasing. }
  assert (FD := fold_delta_abs _ R_). fold D in FD.
  assert (T : tan (degrees psi) = Cmod z) by (rewrite DP; apply tan_atan).
  assert (P180 : PI * / PI = 1) by (apply Rinv_r; lra).
  repeat split.
  - unfold psi, Rdiv. rewrite Rinv_mult, Rinv_inv. assert (0 < / PI) by (apply Rinv_0_lt_compat; lra). apply Rmult_le_pos; [lra|nra].
  - unfold psi. replace 90 with ((PI / 2) / (PI / 180)) by (field; lra).
    unfold Rdiv at 1. unfold Rdiv at 2. apply Rmult_lt_compat_r; [|lra]. apply Rinv_0_lt_compat. lra.
  - rewrite FD. assert (0 <= Rabs (angle (- z)%C) / PI * 180); [|lra].
    unfold Rdiv. repeat apply Rmult_le_pos; try lra; [apply Rabs_pos|apply Rlt_le, Rinv_0_lt_compat; lra].
  - rewrite FD. assert (Rabs (angle (- z)%C) / PI <= 1); [|lra].
    apply (Rmult_le_reg_r PI); [lra|]. unfold Rdiv. rewrite Rmult_assoc, Rinv_l, Rmult_1_r, Rmult_1_l by lra.
    apply Rabs_le. lra.
  - exact T.
  - intros I. unfold rho. rewrite T.
    assert (0 <= angle (- z)%C).
    { destruct (angle_sign (- z)%C) as (A1 & _ & A3).
      assert (Im (- z)%C = - Im z) by reflexivity.
      destruct (Req_dec (Im z) 0) as [Y|Y]; [apply A3; lra|apply Rlt_le, A1; lra]. }
    rewrite FD, Rabs_pos_eq by assumption.
    replace (degrees (180 + angle (- z)%C / PI * 180)) with (angle (- z)%C + PI) by (unfold degrees; field; lra).
    rewrite neg_cos, neg_sin. assert (E := angle_polar (- z)%C). rewrite Cmod_opp in E.
    destruct z as [x y]. unfold Copp in *. cbn [fst snd] in *. injection E as E1 E2. f_equal; lra.
  - intros I. unfold rho. rewrite T.
    assert (E := angle_polar (- z)%C). rewrite Cmod_opp in E.
    destruct (Req_dec (Im z) 0) as [Y|Y].
    + assert (0 <= angle (- z)%C).
      { destruct (angle_sign (- z)%C) as (_ & _ & A3). apply A3. cbn. unfold Im in Y. lra. }
      rewrite FD, Rabs_pos_eq by assumption.
      replace (degrees (180 + angle (- z)%C / PI * 180)) with (angle (- z)%C + PI) by (unfold degrees; field; lra).
      rewrite neg_cos, neg_sin. destruct z as [x y]. cbn [Im snd] in Y. subst y.
      unfold Copp in *. cbn [fst snd] in *. rewrite Ropp_0 in *.
      injection E as E1 E2. unfold Cconj. cbn [fst snd]. f_equal; lra.
    + assert (angle (- z)%C < 0).
      { destruct (angle_sign (- z)%C) as (_ & A2 & _). apply A2. cbn. unfold Im in *. lra. }
      rewrite FD, Rabs_left by assumption.
      replace (degrees (180 + - angle (- z)%C / PI * 180)) with (- angle (- z)%C + PI) by (unfold degrees; field; lra).
      rewrite neg_cos, neg_sin, cos_neg, sin_neg. destruct z as [x y].
      unfold Copp in *. cbn [fst snd] in *. injection E as E1 E2. unfold Cconj. cbn [fst snd]. f_equal; lra.
Qed.

(** * The arrays *)
Lemma mapRR_nth {A B} (f : A -> res B) l r : mapRR f l = Ok r ->
  length r = length l /\ forall i x, nth_error l i = Some x -> exists y, nth_error r i = Some y /\ f x = Ok y.
Proof.
  revert r. induction l as [|a l IH]; intros r H; cbn [mapRR] in H.
  - injection H as <-. split; [reflexivity|]. intros [|i] x E; discriminate E.
  - destruct (f a) as [y|] eqn:Ea; [|discriminate H]. cbn [bindR] in H.
    destruct (mapRR f l) as [ys|] eqn:El; [|discriminate H]. cbn [bindR] in H. injection H as <-.
    destruct (IH ys eq_refl) as [L N]. split; [cbn; now rewrite L|].
    intros [|i] x E; cbn [nth_error] in *; [injection E as <-; now exists y|]. now apply N.
Qed.
(** What is asked of the entry for a wavelength and an angle: it comes from the two complex
    reflection amplitudes of the very stack at that wavelength and that angle. *)
Definition entry_ok (ns : list C) (ds : list (option R)) (wl ang : R) (v : option (R * R)) : Prop :=
  exists sd pd, coh_tmm "s" ns ds (RtoC (sin (degrees ang))) (RtoC (cos (degrees ang))) wl = Ok sd
    /\ coh_tmm "p" ns ds (RtoC (sin (degrees ang))) (RtoC (cos (degrees ang))) wl = Ok pd
    /\ match v with
       | None => cd_r sd = RtoC 0
       | Some (psi, D) => cd_r sd <> RtoC 0 /\ 0 <= psi < 90 /\ 180 <= D <= 360
           /\ tan (degrees psi) * Cmod (cd_r sd) = Cmod (cd_r pd)
           /\ same_or_conj (cd_r pd / cd_r sd)%C (rho psi D)
       end.
Lemma radians_degrees a : radians a = degrees a.
Proof. unfold radians, degrees. field. Qed.
Lemma ellips_ok ns ds wl ang v :
  ellips ns ds (RtoC (sin (radians ang))) (RtoC (cos (radians ang))) wl = Ok v ->
  entry_ok ns ds wl ang (in_degrees v).
Proof.
  rewrite radians_degrees. unfold ellips, entry_ok. intros H.
  destruct (coh_tmm "s" _ _ _ _ _) as [sd|] eqn:Es; [|discriminate H]. cbn [bindR] in H.
  destruct (coh_tmm "p" _ _ _ _ _) as [pd|] eqn:Ep; [|discriminate H]. cbn [bindR] in H.
  exists sd, pd. split; [reflexivity|]. split; [reflexivity|].
  destruct (Ceq_dec (cd_r sd) (RtoC 0)) as [Z|Z].
  - injection H as <-. exact Z.
  - injection H as <-. cbn [in_degrees].
    assert (E : (- cd_r pd / cd_r sd = - (cd_r pd / cd_r sd))%C) by (unfold Cdiv; ring). rewrite E.
    destruct (ratio_spec (cd_r pd / cd_r sd)%C) as (A1 & A2 & A3 & A4).
    split; [exact Z|]. split; [exact A1|]. split; [exact A2|]. split; [|exact A4].
    rewrite A3, <- Cmod_mult. f_equal. field. exact Z.
Qed.

(** C172: every entry of the two arrays comes from the reflection amplitudes of the stack at its
    own wavelength and its own angle, with the flag in force; psi is in [0, 90), Delta in
    [180, 360], and tan(psi) exp(i Delta) is the ratio of the amplitudes or its conjugate. *)
Theorem C172_entries_partial : forall o s wls angs noback kw cols o',
  calculate_ellipsometry o s wls angs noback kw = (Ok cols, o') ->
  length cols = length angs /\
  forall j ang, nth_error angs j = Some ang ->
  exists col, nth_error cols j = Some col /\ length col = length wls /\
  forall i wl, nth_error wls i = Some wl ->
  exists v ns, nth_error col i = Some v /\ get_indices o' s wl = Ok ns
    /\ entry_ok ns (get_widths o' s) wl ang v.
Proof.
  intros o s wls angs noback kw cols o' H. unfold calculate_ellipsometry in H.
  injection H as H <-. destruct (mapRR_nth _ _ _ H) as [L N]. split; [exact L|].
  intros j ang Hj. destruct (N j ang Hj) as (col & Hc & Hm). exists col. split; [exact Hc|].
  destruct (mapRR_nth _ _ _ Hm) as [L' N']. split; [exact L'|].
  intros i wl Hi. destruct (N' i wl Hi) as (v & Hv & He). unfold ell_entry in He.
  destruct (get_indices _ s wl) as [ns|] eqn:G; [|discriminate He]. cbn [bindR] in He.
  destruct (ellips ns _ _ _ wl) as [w|] eqn:Ee; [|discriminate He]. cbn [bindR] in He. injection He as <-.
  exists (in_degrees w), ns. split; [exact Hv|]. split; [reflexivity|]. now apply ellips_ok.
Qed.

(** The flag in force, and what is left in the stack: the deprecated keyword wins over the
    argument, and the media of the stack are untouched. *)
Theorem C172_flag : forall o s wls angs noback kw,
  let o' := snd (calculate_ellipsometry o s wls angs noback kw) in
  o_sub o' = o_sub o /\ o_inc o' = o_inc o
  /\ (kw = None -> o_noback o' = noback) /\ (forall b, kw = Some b -> o_noback o' = b)
  /\ forall o2, o_sub o2 = o_sub o -> o_inc o2 = o_inc o ->
     calculate_ellipsometry o2 s wls angs noback kw = calculate_ellipsometry o s wls angs noback kw.
Proof.
  intros o s wls angs noback kw o'. unfold o', calculate_ellipsometry, set_noback. cbn [snd o_sub o_inc o_noback].
  repeat split; try reflexivity; [now intros ->|now intros b ->|]. intros o2 -> ->. reflexivity.
Qed.

(** * Normal incidence *)
Lemma csqrt_1 : csqrt 1 = RtoC 1.
Proof.
  unfold csqrt. rewrite Cmod_1. cbn [Re Im RtoC fst snd]. replace ((1 + 1) / 2) with 1 by lra. replace ((1 - 1) / 2) with 0 by lra.
  rewrite sqrt_1, sqrt_0. unfold RtoC. f_equal. ring.
Qed.
Lemma cos_in_0 n : cos_in 0 n = RtoC 1.
Proof.
  unfold cos_in, sin_in. replace (1 - 0 / n * (0 / n))%C with (RtoC 1) by (unfold Cdiv; ring). apply csqrt_1.
Qed.
Definition flip (m : mat2) : mat2 := Mat (m00 m) (- m01 m)%C (- m10 m)%C (m11 m).
Lemma flip_mul a b : flip (mmul a b) = mmul (flip a) (flip b).
Proof. unfold flip, mmul. cbn [m00 m01 m10 m11]. f_equal; ring. Qed.
Lemma normal_t n n' : interface_t "p" n n' 1 1 = interface_t "s" n n' 1 1.
Proof. unfold interface_t. cbn [String.eqb Ascii.eqb Bool.eqb]. do 2 f_equal. ring. Qed.
Lemma normal_r n n' : exists r, interface_r "s" n n' 1 1 = Ok r /\ interface_r "p" n n' 1 1 = Ok (- r)%C.
Proof.
  unfold interface_r. cbn [String.eqb Ascii.eqb Bool.eqb]. eexists. split; [reflexivity|]. f_equal.
  unfold Cdiv. replace (n' * 1 + n * 1)%C with (n * 1 + n' * 1)%C by ring. ring.
Qed.
Lemma normal_layer delta n n' : exists m, layer_matrix "s" delta (n, RtoC 1) (n', RtoC 1) = Ok m
  /\ layer_matrix "p" delta (n, RtoC 1) (n', RtoC 1) = Ok (flip m).
Proof.
  unfold layer_matrix. cbn [fst snd]. rewrite normal_t. destruct (normal_r n n') as (r & -> & ->).
  unfold interface_t. cbn [String.eqb Ascii.eqb Bool.eqb bindR]. eexists. split; [reflexivity|].
  f_equal. unfold flip, mscale, mmul. cbn [m00 m01 m10 m11]. f_equal; ring.
Qed.
Lemma normal_layers deltas : forall ns, exists l,
  layer_matrices "s" deltas (map (fun n => (n, RtoC 1)) ns) = Ok l
  /\ layer_matrices "p" deltas (map (fun n => (n, RtoC 1)) ns) = Ok (map flip l).
Proof.
  induction deltas as [|d ds IH]; intros ns; [exists []; split; reflexivity|].
  destruct ns as [|n ns]; [exists []; split; reflexivity|].
  destruct ns as [|n' ns]; [exists []; split; reflexivity|].
  destruct (IH (n' :: ns)) as (l & E1 & E2). destruct (normal_layer d n n') as (m & F1 & F2).
  cbn [map] in E1, E2.
  cbn [map layer_matrices]. rewrite F1, F2. cbn [bindR]. rewrite E1, E2. cbn [bindR].
  exists (m :: l). split; reflexivity.
Qed.
Lemma flip_fold l : forall m, fold_left mmul (map flip l) (flip m) = flip (fold_left mmul l m).
Proof. induction l as [|a l IH]; intros m; [reflexivity|]. cbn [map fold_left]. rewrite <- flip_mul. apply IH. Qed.
Lemma flip_mtilde r t l : mtilde (- r)%C t (map flip l) = flip (mtilde r t l).
Proof.
  unfold mtilde. rewrite flip_mul, <- flip_fold. f_equal.
  - unfold flip, mscale. cbn [m00 m01 m10 m11]. f_equal; ring.
  - f_equal. unfold flip, mid. cbn [m00 m01 m10 m11]. f_equal; ring.
Qed.
Lemma map_cos0 ns : map (fun n => (n, cos_in 0 n)) ns = map (fun n => (n, RtoC 1)) ns.
Proof. apply map_ext. intros n. now rewrite cos_in_0. Qed.
Lemma normal_coh ns ds c0 lam sd pd :
  coh_tmm "s" ns ds (RtoC 0) c0 lam = Ok sd -> coh_tmm "p" ns ds (RtoC 0) c0 lam = Ok pd ->
  cd_r pd = (- cd_r sd)%C.
Proof.
  intros Hs Hp. unfold coh_tmm in Hs, Hp. cbv zeta in Hs, Hp.
  destruct (negb _); [discriminate Hs|]. destruct (length ds =? 0)%nat; [discriminate Hs|].
  destruct (negb _); [discriminate Hs|].
  destruct ns as [|n0 [|n1 ns]]; [discriminate Hs| |].
  { destruct (Rlt_dec _ _); discriminate Hs. }
  assert (E0 : (n0 * 0 = 0)%C) by ring. rewrite E0 in Hs, Hp.
  destruct (Rlt_dec _ _); [discriminate Hs|].
  destruct (finite_all (inner ds)) as [dd|]; [|discriminate Hs]. cbn [bindR] in Hs, Hp.
  rewrite !cos_in_0 in Hs, Hp. rewrite normal_t in Hp.
  destruct (interface_t "s" n0 n1 1 1) as [t|]; [|discriminate Hs]. cbn [bindR] in Hs, Hp.
  destruct (normal_r n0 n1) as (r & R1 & R2). rewrite R1 in Hs. rewrite R2 in Hp. cbn [bindR] in Hs, Hp.
  rewrite map_cos0 in Hs, Hp.
  destruct (normal_layers (map (fun xd => delta_of lam (fst xd) (snd xd)) (combine (map (fun n => (n, RtoC 1)) (n1 :: ns)) dd)) (n1 :: ns)) as (l & L1 & L2).
  rewrite L1 in Hs. rewrite L2 in Hp. cbn [bindR] in Hs, Hp.
  rewrite flip_mtilde in Hp. cbn [flip m00 m10] in Hp.
  destruct (T_from_t "s" _ _ _ _ _); [|discriminate Hs]. cbn [bindR] in Hs.
  destruct (power_entering_from_r "s" _ _ _); [|discriminate Hs]. cbn [bindR] in Hs.
  destruct (T_from_t "p" _ _ _ _ _); [|discriminate Hp]. cbn [bindR] in Hp.
  destruct (power_entering_from_r "p" _ _ _); [|discriminate Hp]. cbn [bindR] in Hp.
  injection Hs as <-. injection Hp as <-. cbn [cd_r]. unfold Cdiv. ring.
Qed.

(** At normal incidence every structure gives psi = 45 and Delta = 180, unless it reflects
    nothing at all. *)
Theorem C172_normal : forall o s wls angs noback kw cols o' j i wl col v,
  calculate_ellipsometry o s wls angs noback kw = (Ok cols, o') ->
  nth_error angs j = Some 0 -> nth_error wls i = Some wl ->
  nth_error cols j = Some col -> nth_error col i = Some v ->
  v = None \/ v = Some (45, 180).
Proof.
  intros o s wls angs noback kw cols o' j i wl col v H Hj Hi Hc Hv.
  destruct (C172_entries_partial _ _ _ _ _ _ _ _ H) as (_ & N).
  destruct (N j 0 Hj) as (col' & Hc' & _ & N'). assert (col' = col) by congruence. subst col'.
  destruct (N' i wl Hi) as (v' & ns & Hv' & _ & sd & pd & Es & Ep & M). assert (v' = v) by congruence. subst v'.
  destruct v as [[psi D]|]; [right|now left].
  destruct M as (Z & P1 & P2 & T & C1 & C2).
  assert (D0 : degrees 0 = 0) by (unfold degrees; field). rewrite D0, sin_0 in Es, Ep.
  assert (E := normal_coh _ _ _ _ _ _ Es Ep).
  assert (Q : (cd_r pd / cd_r sd = RtoC (-1))%C).
  { rewrite E. replace (RtoC (-1)) with (- RtoC 1)%C by (unfold RtoC, Copp; cbn [fst snd]; f_equal; ring). field. exact Z. }
  rewrite Q in C1, C2. assert (P := PI_RGT_0).
  assert (M0 : Cmod (cd_r sd) <> 0).
  { intros Y. apply Z. now apply Cmod_eq_0. }
  assert (T1 : tan (degrees psi) = 1).
  { rewrite E, Cmod_opp in T. apply (Rmult_eq_reg_r (Cmod (cd_r sd))); [|exact M0]. lra. }
  assert (B : - PI / 2 < degrees psi < PI / 2).
  { unfold degrees. split; nra. }
  assert (psi = 45).
  { assert (A : degrees psi = PI / 4).
    { rewrite <- (atan_tan (degrees psi)) by lra. rewrite T1. apply atan_1. }
    unfold degrees in A. apply (Rmult_eq_reg_r PI); lra. }
  subst psi. f_equal. f_equal.
  assert (C3 : rho 45 D = RtoC (-1)) by (apply C1; cbn; lra).
  unfold rho, RtoC in C3. rewrite T1 in C3. injection C3 as C3 C4.
  assert (X : sin (degrees D - PI) = 0).
  { rewrite sin_minus, cos_PI, sin_PI. lra. }
  assert (Y : cos (degrees D - PI) = 1).
  { rewrite cos_minus, cos_PI, sin_PI. lra. }
  assert (Bd : 0 <= degrees D - PI <= PI) by (unfold degrees; split; nra).
  assert (degrees D - PI = 0).
  { destruct (Req_dec (degrees D - PI) 0) as [|Nz]; [assumption|exfalso].
    assert (cos (degrees D - PI) < cos 0) by (apply cos_decreasing_1; lra). rewrite cos_0 in *. lra. }
  unfold degrees in *. apply (Rmult_eq_reg_r PI); lra.
Qed.

(** C172, continued: the sign of the phase is lost; concrete cases. *)
From Coq Require Import Reals Lra Lia String List Arith Bool Psatz.
From Coquelicot Require Import Complex.
From Verif Require Import Common TmmModel TmmProps StackModel RatModel EllModel EllProps.
From Coq Require Import List.
Import ListNotations.
Open Scope R_scope.
Open Scope list_scope.

(** * Conjugate amplitudes give the same output *)
Lemma angle_conj z : Rabs (angle (Cconj z)) = Rabs (angle z).
Proof.
  unfold angle. destruct z as [x y]. unfold Cconj. cbn [Re Im fst snd].
  assert (E : - y / x = - (y / x)) by (unfold Rdiv; ring). rewrite E, atan_opp. clear E.
  set (a := atan (y / x)).
  destruct (Rlt_dec 0 x); [apply Rabs_Ropp|]. destruct (Rlt_dec x 0) as [L|L].
  - destruct (Req_dec y 0) as [Y|Y].
    + assert (a = 0) by (unfold a; subst y; unfold Rdiv; rewrite Rmult_0_l; apply atan_0).
      destruct (Rle_dec 0 (- y)); destruct (Rle_dec 0 y); try lra. f_equal. lra.
    + destruct (Rle_dec 0 (- y)); destruct (Rle_dec 0 y); try lra; rewrite <- Rabs_Ropp; f_equal; lra.
  - destruct (Rlt_dec 0 (- y)); destruct (Rlt_dec 0 y); try lra.
    + destruct (Rlt_dec y 0); [|lra]. now rewrite Rabs_Ropp.
    + destruct (Rlt_dec (- y) 0); [|lra]. now rewrite Rabs_Ropp.
    + destruct (Rlt_dec (- y) 0); destruct (Rlt_dec y 0); lra || reflexivity.
Qed.
Lemma fold_conj z : fold_delta (angle (Cconj z)) = fold_delta (angle z).
Proof. rewrite !fold_delta_abs by apply angle_range. now rewrite angle_conj. Qed.
Lemma Cmod_conj z : Cmod (Cconj z) = Cmod z.
Proof. unfold Cmod, Cconj. cbn [fst snd]. apply (f_equal sqrt). ring. Qed.
Lemma Cconj_mult (z w : C) : Cconj (z * w)%C = (Cconj z * Cconj w)%C.
Proof. unfold Cconj, Cmult. apply injective_projections; cbn [fst snd]; ring. Qed.
Lemma Cconj_inv (z : C) : Cconj (/ z)%C = (/ Cconj z)%C.
Proof. unfold Cconj, Cinv. cbn [fst snd]. replace (fst z ^ 2 + (- snd z) ^ 2) with (fst z ^ 2 + snd z ^ 2) by ring. apply injective_projections; cbn [fst snd]; unfold Rdiv; ring. Qed.
Lemma Cconj_opp (z : C) : Cconj (- z)%C = (- Cconj z)%C.
Proof. reflexivity. Qed.

(** * A transparent film between transparent media *)
Lemma csqrt_pos (a c : R) : a = c * c -> 0 <= c -> csqrt (RtoC a) = RtoC c.
Proof.
  intros -> H. unfold csqrt. rewrite Cmod_R. cbn [Re Im RtoC fst snd]. assert (0 <= c * c) by nra.
  rewrite Rabs_pos_eq by assumption. replace ((c * c + c * c) / 2) with (Rsqr c) by (unfold Rsqr; lra).
  replace ((c * c - c * c) / 2) with 0 by lra. rewrite sqrt_Rsqr, sqrt_0 by assumption. unfold RtoC. f_equal. ring.
Qed.
Lemma cos_in_real (b n c : R) : n <> 0 -> n * n - b * b = n * n * (c * c) -> 0 <= c -> cos_in b n = RtoC c.
Proof.
  intros Hn E Hc. unfold cos_in, sin_in.
  replace (1 - b / n * (b / n))%C with (RtoC (1 - b / n * (b / n))).
  - apply csqrt_pos; [|exact Hc]. apply (Rmult_eq_reg_r (n * n)); [|nra]. field_simplify; [|exact Hn]. nra.
  - rewrite <- RtoC_div by exact Hn. now rewrite <- RtoC_mult, <- RtoC_minus.
Qed.
Definition cx (a b : R) : C := (a, b).
Definition film_r (a b sg : R) : C := (cx (a + b) (sg * (b - a)) / cx (1 + a * b) (sg * (a * b - 1)))%C.
Lemma film_amplitude (a b t u x y sg : R) (em ep : C) : t <> 0 -> u <> 0 -> x <> 0 -> sg * sg = 1 ->
  em = cx (sg * x) (- x) -> ep = cx (sg * x) x -> (0 < 1 + a * b) ->
  let m := mtilde a t [mmul (Mat em 0 0 ep) (mscale (1 / u)%C (Mat 1 b b 1))] in
  (m10 m / m00 m)%C = film_r a b sg.
Proof.
  intros Ht Hu Hx Hs -> -> Hp m. unfold m, mtilde, film_r, mmul, mscale, mid. cbn [fold_left m00 m01 m10 m11].
  assert (D : cx (1 + a * b) (sg * (a * b - 1)) <> RtoC 0).
  { intros E. apply (f_equal fst) in E. cbn in E. lra. }
  assert (K : (cx (sg * x) (- x) + RtoC a * RtoC b * cx (sg * x) x)%C = (RtoC (sg * x) * cx (1 + a * b) (sg * (a * b - 1)))%C).
  { unfold cx, RtoC, Cmult, Cplus. cbn [fst snd]. f_equal; [ring|].
    replace (sg * x * (sg * (a * b - 1)) + 0 * (1 + a * b)) with (sg * sg * (x * (a * b - 1))) by ring. rewrite Hs. ring. }
  assert (N : (RtoC a * cx (sg * x) (- x) + RtoC b * cx (sg * x) x)%C = (RtoC (sg * x) * cx (a + b) (sg * (b - a)))%C).
  { unfold cx, RtoC, Cmult, Cplus. cbn [fst snd]. f_equal; [ring|].
    replace (sg * x * (sg * (b - a)) + 0 * (a + b)) with (sg * sg * (x * (b - a))) by ring. rewrite Hs. ring. }
  assert (S0 : RtoC (sg * x) <> 0) by (intros E; apply RtoC_inj in E; assert (sg <> 0) by nra; nra).
  assert (T0 : RtoC t <> 0) by (intros E; apply RtoC_inj in E; lra).
  assert (U0 : RtoC u <> 0) by (intros E; apply RtoC_inj in E; lra).
  set (em := cx (sg * x) (- x)) in *. set (ep := cx (sg * x) x) in *.
  transitivity ((RtoC a * em + RtoC b * ep) / (em + RtoC a * RtoC b * ep))%C.
  - rewrite K. clearbody em ep. replace (1 / t)%C with (/ t)%C by (unfold Cdiv; ring). replace (1 / u)%C with (/ u)%C by (unfold Cdiv; ring).
    assert (T1 : (/ t)%C <> 0) by (intros E; apply T0; rewrite <- (Cmult_1_l t), <- (Cinv_r t), <- Cmult_assoc by exact T0; rewrite E; ring).
    assert (U1 : (/ u)%C <> 0) by (intros E; apply U0; rewrite <- (Cmult_1_l u), <- (Cinv_r u), <- Cmult_assoc by exact U0; rewrite E; ring).
    set (ti := (/ t)%C) in *. set (ui := (/ u)%C) in *. clearbody ti ui.
    match goal with |- (?A / ?B = _)%C => replace B with (ti * ui * (em + a * b * ep))%C by ring;
      replace A with (ti * ui * (a * em + b * ep))%C by ring end.
    rewrite K. field. repeat split; assumption.
  - rewrite K, N. field. split; assumption.
Qed.

(** The film: index 39/25 on a substrate of index 15/7 in air, light of 288 nm whose angle of
    incidence has the sine 3/5. A thickness of 25 nm is an eighth of a wave, 75 nm three eighths. *)
Definition glass : outer := Outer (Some ((fun _ => 15 / 7), (fun _ => 0))) None false.
Definition film (w : R) : stack := add_layers empty_stack [LSolcore w (fun _ => 39 / 25) (fun _ => 0)].
Definition ang35 : R := asin (3 / 5) * 180 / PI.
Lemma ang35_sin : sin (degrees ang35) = 3 / 5.
Proof.
  assert (P := PI_RGT_0). unfold degrees, ang35. replace (asin (3 / 5) * 180 / PI * PI / 180) with (asin (3 / 5)) by (field; lra).
  apply sin_asin. lra.
Qed.
Lemma film_indices w wl : get_indices glass (film w) wl = Ok (stack_n 1 [(RtoC (39 / 25), w)] (RtoC (15 / 7))).
Proof.
  unfold get_indices, film, glass, stack_n. cbn [add_layers add_one remember count push_k push_n push_model push_width empty_stack
    st_n st_k st_num st_layers st_widths st_models app indices_loop eval_n eval_k bindR o_noback n_front n_back o_inc o_sub map fst].
  do 2 f_equal. f_equal; [|f_equal]; ring.
Qed.
Lemma film_widths w : get_widths glass (film w) = stack_d [(RtoC (39 / 25), w)].
Proof. reflexivity. Qed.
Lemma cos35_a : cos_in (RtoC (3 / 5)) (RtoC 1) = RtoC (4 / 5).
Proof. apply cos_in_real; lra. Qed.
Lemma cos35_b : cos_in (RtoC (3 / 5)) (RtoC (39 / 25)) = RtoC (12 / 13).
Proof. apply cos_in_real; lra. Qed.
Lemma cos35_c : cos_in (RtoC (3 / 5)) (RtoC (15 / 7)) = RtoC (24 / 25).
Proof. apply cos_in_real; lra. Qed.
Ltac realC := rewrite <- ?RtoC_mult, <- ?RtoC_minus, <- ?RtoC_plus, <- ?RtoC_div by lra;
  rewrite <- ?RtoC_mult, <- ?RtoC_minus, <- ?RtoC_plus, <- ?RtoC_div by lra.
Definition ra (pol : string) : R := if String.eqb pol "s" then - (2 / 7) else 22 / 147.
Definition rb (pol : string) : R := if String.eqb pol "s" then - (3 / 17) else 759 / 5491.
Lemma film_front pol : valid_pol pol ->
  rq pol (med (3 / 5) 1) (med (3 / 5) (RtoC (39 / 25))) = RtoC (ra pol)
  /\ exists t : R, t <> 0 /\ tq pol (med (3 / 5) 1) (med (3 / 5) (RtoC (39 / 25))) = RtoC t.
Proof.
  unfold med. rewrite cos35_a, cos35_b. unfold rq, tq, den, fa, fb. cbn [fst snd].
  intros [-> | ->]; cbn [String.eqb Ascii.eqb Bool.eqb ra]; (split; [realC; f_equal; unfold ra; cbn; field; lra|]).
  - exists (2 * 1 * (1 * (4 / 5)) / (1 * (1 * (4 / 5)) + 1 * (39 / 25 * (12 / 13)))). split; [lra|]. realC. reflexivity.
  - exists (2 * 1 * (4 / 5) / (39 / 25 * (4 / 5) + 1 * (12 / 13))). split; [lra|]. realC. reflexivity.
Qed.
Lemma film_rear pol : valid_pol pol ->
  rq pol (med (3 / 5) (RtoC (39 / 25))) (med (3 / 5) (RtoC (15 / 7))) = RtoC (rb pol)
  /\ exists t : R, t <> 0 /\ tq pol (med (3 / 5) (RtoC (39 / 25))) (med (3 / 5) (RtoC (15 / 7))) = RtoC t.
Proof.
  unfold med. rewrite cos35_b, cos35_c. unfold rq, tq, den, fa, fb. cbn [fst snd].
  intros [-> | ->]; cbn [String.eqb Ascii.eqb Bool.eqb rb]; (split; [realC; f_equal; unfold rb; cbn; field; lra|]).
  - exists (2 * 1 * (39 / 25 * (12 / 13)) / (1 * (39 / 25 * (12 / 13)) + 1 * (15 / 7 * (24 / 25)))). split; [lra|]. realC. reflexivity.
  - exists (2 * (39 / 25) * (12 / 13) / (15 / 7 * (12 / 13) + (39 / 25) * (24 / 25))). split; [lra|]. realC. reflexivity.
Qed.
Lemma film_delta w : dl 288 (3 / 5) (RtoC (39 / 25)) w = RtoC (w * PI / 100).
Proof.
  unfold dl, delta_of, med. cbn [fst snd]. rewrite cos35_b. unfold kz_of.
  replace (RtoC (2 * PI) * RtoC (39 / 25) * RtoC (12 / 13) / RtoC 288 * RtoC w)%C with (RtoC (w * PI / 100)).
  - unfold cap_delta. cbn [Im RtoC snd]. destruct (Rlt_dec 100 0); [lra|reflexivity].
  - realC. f_equal. field.
Qed.
Lemma film_coh pol w sg : valid_pol pol -> sg * sg = 1 ->
  cos (w * PI / 100) = sg * / sqrt 2 -> sin (w * PI / 100) = / sqrt 2 ->
  exists d, coh_tmm pol (stack_n 1 [(RtoC (39 / 25), w)] (RtoC (15 / 7))) (stack_d [(RtoC (39 / 25), w)])
    (RtoC (sin (degrees ang35))) (RtoC (cos (degrees ang35))) 288 = Ok d /\ cd_r d = film_r (ra pol) (rb pol) sg.
Proof.
  intros V Hs Hc Hn. rewrite ang35_sin.
  rewrite (coh_tmm_stack pol 1 (RtoC (3 / 5)) (RtoC (cos (degrees ang35))) [(RtoC (39 / 25), w)] (RtoC (15 / 7)) 288 (3 / 5) V)
    by ring.
  eexists. split; [reflexivity|]. cbn [cd_r]. unfold mt. cbn [nxt lms].
  destruct (film_front pol V) as (E1 & t & Ht & E2). destruct (film_rear pol V) as (E3 & u & Hu & E4).
  rewrite E1, E2. unfold jmat. rewrite E3, E4. rewrite film_delta. unfold pmat.
  assert (S2 : 0 < / sqrt 2) by (apply Rinv_0_lt_compat, sqrt_lt_R0; lra).
  apply (film_amplitude (ra pol) (rb pol) t u (/ sqrt 2) 0 sg); try assumption; try lra.
  - unfold cexp, cx. replace (- (Ci * RtoC (w * PI / 100)))%C with (cx 0 (- (w * PI / 100)))
      by (unfold cx, Ci, RtoC, Cmult, Copp; cbn [fst snd]; f_equal; ring).
    cbn [cx Re Im fst snd]. rewrite exp_0, cos_neg, sin_neg, Hc, Hn. f_equal; ring.
  - unfold cexp, cx. replace (Ci * RtoC (w * PI / 100))%C with (cx 0 (w * PI / 100))
      by (unfold cx, Ci, RtoC, Cmult; cbn [fst snd]; f_equal; ring).
    cbn [cx Re Im fst snd]. rewrite exp_0, Hc, Hn. f_equal; ring.
  - unfold ra, rb. destruct V as [-> | ->]; cbn; lra.
Qed.

Lemma film_s : film_r (ra "s") (rb "s") 1 = cx (-4172/14197) (-2295/14197).
Proof. unfold film_r, ra, rb, cx, Cdiv, Cinv, Cmult. cbn [String.eqb Ascii.eqb Bool.eqb fst snd]. f_equal; field. Qed.
Lemma film_p : film_r (ra "p") (rb "p") 1 = cx (33123880636/217271177511) (29347335875/217271177511).
Proof. unfold film_r, ra, rb, cx, Cdiv, Cinv, Cmult. cbn [String.eqb Ascii.eqb Bool.eqb fst snd]. f_equal; field. Qed.
Lemma film_ratio : (film_r (ra "p") (rb "p") 1 / film_r (ra "s") (rb "s") 1)%C = cx (-205544965846517/346982070485067) (-46417779210880/346982070485067).
Proof. rewrite film_s, film_p. unfold cx, Cdiv, Cinv, Cmult. cbn [fst snd]. f_equal; field. Qed.
Lemma film_conj a b : film_r a b (-1) = Cconj (film_r a b 1).
Proof.
  unfold film_r, Cdiv. rewrite Cconj_mult, Cconj_inv. unfold cx, Cconj. cbn [fst snd].
  replace (-1 * (b - a)) with (- (1 * (b - a))) by ring. replace (-1 * (a * b - 1)) with (- (1 * (a * b - 1))) by ring. reflexivity.
Qed.

(** The ratio of the two reflection amplitudes of a stack. *)
Definition ratio_is (o : outer) (s : stack) (wl ang : R) (z : C) : Prop :=
  exists ns sd pd, get_indices o s wl = Ok ns
    /\ coh_tmm "s" ns (get_widths o s) (RtoC (sin (degrees ang))) (RtoC (cos (degrees ang))) wl = Ok sd
    /\ coh_tmm "p" ns (get_widths o s) (RtoC (sin (degrees ang))) (RtoC (cos (degrees ang))) wl = Ok pd
    /\ (cd_r pd / cd_r sd)%C = z.
Lemma film_entry w sg : sg * sg = 1 -> cos (w * PI / 100) = sg * / sqrt 2 -> sin (w * PI / 100) = / sqrt 2 ->
  film_r (ra "s") (rb "s") sg <> RtoC 0 ->
  let z := (film_r (ra "p") (rb "p") sg / film_r (ra "s") (rb "s") sg)%C in
  ratio_is glass (film w) 288 ang35 z
  /\ calculate_ellipsometry glass (film w) [288] [ang35] false None
     = (Ok [[Some (atan (Cmod z) / (PI / 180), fold_delta (angle (- z)%C))]], glass).
Proof.
  intros Hs Hc Hn Nz z.
  destruct (film_coh "s" w sg (or_introl eq_refl) Hs Hc Hn) as (sd & Es & Rs).
  destruct (film_coh "p" w sg (or_intror eq_refl) Hs Hc Hn) as (pd & Ep & Rp).
  split.
  - exists (stack_n 1 [(RtoC (39 / 25), w)] (RtoC (15 / 7))), sd, pd. rewrite film_widths.
    split; [apply film_indices|]. split; [exact Es|]. split; [exact Ep|]. now rewrite Rs, Rp.
  - unfold calculate_ellipsometry. change (set_noback glass (the_flag false None)) with glass.
    cbn [mapRR]. unfold ell_entry. rewrite film_indices, film_widths, radians_degrees. cbn [bindR].
    unfold ellips. rewrite Es, Ep. cbn [bindR]. rewrite Rs, Rp.
    destruct (Ceq_dec _ _) as [Y|_]; [contradiction|]. cbn [bindR in_degrees]. unfold z.
    replace (- film_r (ra "p") (rb "p") sg / film_r (ra "s") (rb "s") sg)%C
      with (- (film_r (ra "p") (rb "p") sg / film_r (ra "s") (rb "s") sg))%C by (unfold Cdiv; ring). reflexivity.
Qed.

(** Two films that differ only in thickness, whose ratios of amplitudes are conjugate and not
    real, give the same psi and the same Delta: the sign of the phase cannot be told from the
    result. (With the two [np.where] removed Delta would differ.) *)
Theorem C172_sign_refuted : exists o s1 s2 wl ang v z,
  calculate_ellipsometry o s1 [wl] [ang] false None = (Ok [[Some v]], o)
  /\ calculate_ellipsometry o s2 [wl] [ang] false None = (Ok [[Some v]], o)
  /\ ratio_is o s1 wl ang z /\ ratio_is o s2 wl ang (Cconj z) /\ Im z <> 0
  /\ rho (fst v) (snd v) = z /\ rho (fst v) (snd v) <> Cconj z.
Proof.
  assert (W1 : 25 * PI / 100 = PI / 4) by field. assert (W2 : 75 * PI / 100 = 3 * (PI / 4)) by field.
  assert (N1 : film_r (ra "s") (rb "s") 1 <> RtoC 0).
  { rewrite film_s. intros E. apply (f_equal fst) in E. cbn in E. lra. }
  assert (N2 : film_r (ra "s") (rb "s") (-1) <> RtoC 0).
  { rewrite film_conj, film_s. intros E. apply (f_equal fst) in E. cbn in E. lra. }
  destruct (film_entry 25 1) as [A1 A2]; [lra|rewrite W1, cos_PI4; field; apply Rgt_not_eq, sqrt_lt_R0; lra|
    rewrite W1, sin_PI4; field; apply Rgt_not_eq, sqrt_lt_R0; lra|exact N1|].
  destruct (film_entry 75 (-1)) as [B1 B2]; [lra|rewrite W2, cos_3PI4; field; apply Rgt_not_eq, sqrt_lt_R0; lra|
    rewrite W2, sin_3PI4; field; apply Rgt_not_eq, sqrt_lt_R0; lra|exact N2|].
  set (z := (film_r (ra "p") (rb "p") 1 / film_r (ra "s") (rb "s") 1)%C) in *.
  assert (EZ : (film_r (ra "p") (rb "p") (-1) / film_r (ra "s") (rb "s") (-1))%C = Cconj z).
  { unfold z, Cdiv. now rewrite !film_conj, Cconj_mult, Cconj_inv. }
  rewrite EZ in B1, B2. rewrite Cmod_conj, <- Cconj_opp, fold_conj in B2.
  assert (IZ : Im z < 0) by (unfold z; rewrite film_ratio; cbn; lra).
  destruct (ratio_spec z) as (_ & _ & _ & Q & _). cbv zeta in Q.
  exists glass, (film 25), (film 75), 288, ang35, (atan (Cmod z) / (PI / 180), fold_delta (angle (- z)%C)), z.
  cbn [fst snd]. split; [exact A2|]. split; [exact B2|]. split; [exact A1|]. split; [exact B1|].
  split; [apply Rlt_not_eq; exact IZ|]. split; [apply Q; lra|].
  rewrite Q by lra. intros E. apply (f_equal Im) in E. assert (Y : Im (Cconj z) = - Im z) by reflexivity. lra.
Qed.

(** A case of the positive theorems: the film at normal and at oblique incidence. *)
Example ex_C172_film : exists v, calculate_ellipsometry glass (film 25) [288] [ang35] false None = (Ok [[Some v]], glass)
  /\ 0 <= fst v < 90 /\ 180 < snd v.
Proof.
  assert (W1 : 25 * PI / 100 = PI / 4) by field.
  destruct (film_entry 25 1) as [A1 A2]; [lra|rewrite W1, cos_PI4; field; apply Rgt_not_eq, sqrt_lt_R0; lra|
    rewrite W1, sin_PI4; field; apply Rgt_not_eq, sqrt_lt_R0; lra| |].
  { rewrite film_s. intros E. apply (f_equal fst) in E. cbn in E. lra. }
  eexists. split; [exact A2|]. cbn [fst snd].
  match goal with |- context [angle (- ?w)%C] => set (y := w) in *; destruct (ratio_spec y) as (Q1 & _) end.
  cbv zeta in Q1. split; [exact Q1|].
  rewrite fold_delta_abs by apply angle_range.
  assert (0 < angle (- y)%C).
  { apply angle_sign. unfold y. rewrite film_ratio. cbn. lra. }
  rewrite Rabs_pos_eq by lra. assert (P := PI_RGT_0).
  assert (0 < angle (- y)%C / PI * 180); [|lra]. apply Rmult_lt_0_compat; [|lra]. now apply Rdiv_lt_0_compat.
Qed.
Example ex_C172_normal : exists v,
  calculate_ellipsometry glass empty_stack [288] [0] false None = (Ok [[Some v]], glass) /\ v = (45, 180).
Proof.
  assert (D0 : radians 0 = 0) by (unfold radians; ring).
  destruct (calculate_ellipsometry glass empty_stack [288] [0] false None) as [c o] eqn:E.
  assert (E' := E).
  unfold calculate_ellipsometry in E. change (set_noback glass (the_flag false None)) with glass in E.
  cbn [mapRR] in E. unfold ell_entry in E.
  assert (G : get_indices glass empty_stack 288 = Ok (stack_n 1 [] (RtoC (15 / 7)))).
  { unfold get_indices, glass, stack_n. cbn. do 3 f_equal. ring. }
  rewrite G in E. change (get_widths glass empty_stack) with (stack_d []) in E.
  rewrite D0, sin_0, cos_0 in E. cbn [bindR] in E.
  unfold ellips in E.
  rewrite (coh_tmm_stack "s" 1 0 1 [] (RtoC (15 / 7)) 288 0 (or_introl eq_refl)) in E by ring.
  rewrite (coh_tmm_stack "p" 1 0 1 [] (RtoC (15 / 7)) 288 0 (or_intror eq_refl)) in E by ring.
  cbn [bindR cd_r] in E.
  match type of E with context [Ceq_dec ?x ?y] => destruct (Ceq_dec x y) as [Z|Z] end.
  - exfalso. revert Z. unfold mt, mtilde, med. cbn [nxt lms fold_left]. rewrite !cos_in_0.
    assert (R1 : rq "s" (RtoC 1, RtoC 1) (RtoC (15 / 7), RtoC 1) = RtoC (- (4 / 11))).
    { unfold rq, den, fa, fb. cbn [String.eqb Ascii.eqb Bool.eqb fst snd]. realC. f_equal. field. }
    assert (T1 : tq "s" (RtoC 1, RtoC 1) (RtoC (15 / 7), RtoC 1) = RtoC (7 / 11)).
    { unfold tq, den, fa, fb. cbn [String.eqb Ascii.eqb Bool.eqb fst snd]. realC. f_equal. field. }
    rewrite R1, T1. unfold mmul, mscale, mid. cbn [m00 m01 m10 m11]. intros Z.
    assert (T0 : RtoC (7 / 11) <> 0) by (intros Y; apply RtoC_inj in Y; lra).
    revert Z. generalize dependent (RtoC (7 / 11)). intros t0 _ T0 Z.
    assert (Y : RtoC (- (4 / 11)) = 0) by (rewrite <- Z; field; split; [exact T0|apply C_neq_Re; cbn; lra]).
    apply RtoC_inj in Y. lra.
  - cbn [bindR in_degrees] in E. injection E as <- <-. eexists. split; [reflexivity|].
    destruct (C172_normal _ _ _ _ _ _ _ _ 0%nat 0%nat 288 _ _ E' eq_refl eq_refl eq_refl eq_refl) as [Q|Q]; [discriminate Q|].
    injection Q as Q1 Q2. now rewrite Q1, Q2.
Qed.

(** Properties C142 and C143: attenuation by the atmosphere and the position of the sun. *)
From Coq Require Import Reals String List Bool Lia Lra Psatz Arith ZArith.
From Verif Require Import Common NpModel PhysConst IVProps SchrodProps Spectral2Model.
From Coquelicot Require Import Coquelicot.
From Coq Require Import List.
Import ListNotations.
Open Scope R_scope.
Open Scope list_scope.

(** * Elementary estimates *)

Lemma sin_le_x x : 0 <= x -> sin x <= x.
Proof. intros [H| <-]; [left; now apply sin_lt_x|rewrite sin_0; lra]. Qed.
Lemma sin_nx n x : Rabs (sin (INR n * x)) <= INR n * Rabs (sin x).
Proof.
  induction n as [|n IH]; [cbn [INR]; rewrite Rmult_0_l, sin_0, Rabs_R0; lra|]. rewrite S_INR, Rmult_plus_distr_r, Rmult_1_l, sin_plus.
  apply Rle_trans with (Rabs (sin (INR n * x) * cos x) + Rabs (cos (INR n * x) * sin x)); [apply Rabs_triang|]. rewrite !Rabs_mult.
  pose proof (COS_bound x) as B1. pose proof (COS_bound (INR n * x)) as B2.
  assert (C1 : Rabs (cos x) <= 1) by (apply Rabs_le; lra). assert (C2 : Rabs (cos (INR n * x)) <= 1) by (apply Rabs_le; lra).
  pose proof (Rabs_pos (sin x)). pose proof (Rabs_pos (sin (INR n * x))).
  assert (Rabs (sin (INR n * x)) * Rabs (cos x) <= Rabs (sin (INR n * x)) * 1) by (apply Rmult_le_compat_l; assumption).
  assert (Rabs (cos (INR n * x)) * Rabs (sin x) <= 1 * Rabs (sin x)) by (apply Rmult_le_compat_r; assumption). lra.
Qed.
Lemma Int_part_spec r z : IZR z <= r < IZR z + 1 -> Int_part r = z.
Proof. intros H. destruct (base_Int_part r) as [A B]. assert (Int_part r < z + 1)%Z by (apply lt_IZR; rewrite plus_IZR; lra). assert (z < Int_part r + 1)%Z by (apply lt_IZR; rewrite plus_IZR; lra). lia. Qed.
Lemma PI_3_4 : 3 < PI <= 4.
Proof. pose proof PI2_3_2. pose proof PI_4. lra. Qed.
Lemma exp_le' x y : x <= y -> exp x <= exp y.
Proof. intros [L| ->]; [left; now apply exp_increasing|right; reflexivity]. Qed.
Lemma Rpower_pos a b : 0 < Rpower a b.
Proof. apply exp_pos. Qed.

Lemma cos_zenith_bound s : -1 <= cos_zenith s <= 1.
Proof.
  unfold cos_zenith. set (d := declination _). set (p := latitude s). set (t := hour_angle_degrees s / 180 * PI). cbv zeta.
  pose proof (COS_bound t) as B. pose proof (sin2_cos2 d) as E1. pose proof (sin2_cos2 p) as E2. unfold Rsqr in E1, E2.
  assert (Hu : (cos d * cos p * cos t) ^ 2 <= (cos d * cos p) ^ 2).
  { replace ((cos d * cos p * cos t) ^ 2) with ((cos d * cos p) ^ 2 * cos t ^ 2) by ring. rewrite <- (Rmult_1_r ((cos d * cos p) ^ 2)) at 2. apply Rmult_le_compat_l; [apply pow2_ge_0|nra]. }
  set (A := cos d) in *. set (B' := cos p) in *. set (C := cos t) in *. set (S1 := sin d) in *. set (S2 := sin p) in *. clearbody A B' C S1 S2.
  assert (G : (A * B' * C + S1 * S2) ^ 2 <= 1).
  { assert ((A * B' * C + S1 * S2) ^ 2 + (A * C * S2 - S1 * B') ^ 2 <= 1); [|pose proof (pow2_ge_0 (A * C * S2 - S1 * B')); lra].
    replace ((A * B' * C + S1 * S2) ^ 2 + (A * C * S2 - S1 * B') ^ 2) with ((A * C) ^ 2 * (S2 * S2 + B' * B') + S1 * S1 * (S2 * S2 + B' * B')) by ring. rewrite E2.
    assert (A * A * (C * C) <= A * A * 1) by (apply Rmult_le_compat_l; nra). nra. }
  nra.
Qed.
Lemma zenith_range s : 0 <= zenith_degrees s <= 180.
Proof.
  unfold zenith_degrees. pose proof (acos_bound (cos_zenith s)). pose proof PI_3_4. unfold Rdiv. split.
  - apply Rmult_le_pos; [|lra]. apply Rmult_le_pos; [lra|left; apply Rinv_0_lt_compat; lra].
  - assert (acos (cos_zenith s) * / PI <= 1); [|lra]. apply Rmult_le_reg_r with PI; [lra|]. rewrite Rmult_assoc, Rinv_l by lra. lra.
Qed.
Lemma acos_degrees s : acos (cos_zenith s) = zenith_degrees s * PI / 180.
Proof. unfold zenith_degrees. pose proof PI_3_4. field. lra. Qed.
Lemma cos_degrees s : cos_zenith s = cos (zenith_degrees s * PI / 180).
Proof. rewrite <- acos_degrees. symmetry. apply cos_acos, cos_zenith_bound. Qed.

(** The denominator of the air mass as a function of the zenith angle in degrees. *)
Definition depth (z : R) : R := cos (z * PI / 180) + 0.15 * Rpower (93.885 - z) (- 1.253).
Lemma relative_am_spec s : relative_am s =
  if Rlt_dec (93.885 - zenith_degrees s) 0 then None else if Req_EM_T (93.885 - zenith_degrees s) 0 then Some 0 else Some (1 / depth (zenith_degrees s)).
Proof. unfold relative_am, depth. rewrite (cos_acos _ (cos_zenith_bound s)), <- cos_degrees. reflexivity. Qed.
Lemma depth_pos z : 0 <= z < 93.885 -> 0 < depth z.
Proof.
  intros Hz. unfold depth. pose proof PI_3_4 as P. pose proof (Rpower_pos (93.885 - z) (- 1.253)) as Pp. destruct (Rle_dec z 90) as [L|N].
  - assert (0 <= cos (z * PI / 180)) by (apply cos_ge_0; nra). lra.
  - replace (z * PI / 180) with (PI / 2 + (z - 90) * PI / 180) by field. rewrite <- (Ropp_involutive (cos _)), <- sin_cos.
    set (u := 93.885 - z) in *. assert (Hu : 0 < u < 3.885) by (unfold u; lra).
    assert (S1 : sin ((z - 90) * PI / 180) <= (3.885 - u) * (4 / 180)).
    { apply Rle_trans with ((z - 90) * PI / 180); [apply sin_le_x; unfold Rdiv; apply Rmult_le_pos; [apply Rmult_le_pos|]; lra|]. unfold u. nra. }
    assert (G : (3.885 - u) * (4 / 180) < 0.15 * Rpower u (- 1.253)); [|lra].
    destruct (Rle_dec u 1) as [U|U].
    + assert (1 <= Rpower u (- 1.253)); [|lra]. unfold Rpower. apply Rle_trans with (exp 0); [rewrite exp_0; lra|]. apply exp_le'.
      assert (ln u <= 0) by (rewrite <- ln_1; destruct (Req_dec u 1) as [-> |]; [lra|left; apply ln_increasing; lra]). nra.
    + set (s := sqrt u). assert (Es : s * s = u) by (apply sqrt_sqrt; lra). assert (Ps : 0 < s) by (apply sqrt_lt_R0; lra).
      assert (Ge : / (u * s) <= Rpower u (- 1.253)).
      { replace (u * s) with (Rpower u (3 / 2)). 
        - rewrite <- Rpower_Ropp. apply Rle_Rpower; lra.
        - replace (3 / 2) with (1 + / 2) by field. rewrite Rpower_plus, Rpower_1, Rpower_sqrt by lra. reflexivity. }
      apply Rlt_le_trans with (0.15 * / (u * s)); [|lra]. apply Rmult_lt_reg_r with (u * s); [apply Rmult_lt_0_compat; lra|].
      replace (0.15 * / (u * s) * (u * s)) with 0.15 by (field; lra). rewrite <- Es in *. assert (s < 1.98) by nra.
      assert (W1 : 1.7 < s -> 2.89 <= s * s) by nra. assert (W2 : 0 < s * s < 3.885) by lra. clear - W1 W2 H Ps. revert W1 W2. generalize (s * s). intros w W1 W2.
      assert (W3 : 0 <= w * (3.885 - w)) by (apply Rmult_le_pos; lra).
      assert (Q : w * (3.885 - w) * s < 6.74).
      { destruct (Rle_dec s 1.7).
        - assert (w * (3.885 - w) <= 3.774) by (pose proof (pow2_ge_0 (w - 1.9425)); nra). nra.
        - assert (w * (3.885 - w) <= 2.89 * 0.995) by (specialize (W1 ltac:(lra)); nra). nra. }
      lra.
Qed.
Lemma relative_am_nonneg s am : relative_am s = Some am -> 0 <= am.
Proof.
  rewrite relative_am_spec. pose proof (zenith_range s). destruct (Rlt_dec _ 0); [discriminate|]. destruct (Req_EM_T _ 0); intros E; injection E as <-; [lra|].
  left. apply Rdiv_lt_0_compat; [lra|]. apply depth_pos. lra.
Qed.

(** * C142: the atmosphere *)

Definition good_row (r : row) : Prop := 12 / 10 ^ 8 <= wavelength r /\ 0 <= am_zero r /\ 0 <= water r /\ 0 <= ozone_abs r /\ 0 <= gas r.
Definition good_state (s : state) : Prop := 0 <= pressure s /\ 0 <= ozone s /\ 0 <= turbidity s /\ 0 <= precipwater s.

(** More of an absorber absorbs more, with a power law between. *)
Lemma saturating a p x y : 0 <= a -> 0 <= p <= 1 -> 0 <= x <= y -> x / Rpower (1 + a * x) p <= y / Rpower (1 + a * y) p.
Proof.
  intros Ha Hp [H0 Hxy]. assert (Ax : 0 <= a * x) by (apply Rmult_le_pos; lra). assert (Axy : a * x <= a * y) by (apply Rmult_le_compat_l; lra).
  set (X := 1 + a * x). set (Y := 1 + a * y). assert (HX : 1 <= X <= Y) by (unfold X, Y; lra). pose proof (Rpower_pos X p) as PX. pose proof (Rpower_pos Y p) as PY.
  assert (E : Rpower Y p = Rpower X p * Rpower (Y / X) p) by (rewrite Rpower_mult_distr by (try apply Rdiv_lt_0_compat; lra); f_equal; field; lra).
  assert (Q : 1 <= Y / X) by (apply Rmult_le_reg_r with X; [lra|]; unfold Rdiv; rewrite Rmult_assoc, Rinv_l; lra).
  assert (B : Rpower (Y / X) p <= Y / X).
  { rewrite <- (Rpower_1 (Y / X)) at 2 by lra. apply Rle_Rpower; lra. }
  apply Rmult_le_reg_r with (Rpower Y p); [exact PY|]. replace (y / Rpower Y p * Rpower Y p) with y by (field; lra). rewrite E at 1.
  replace (x / Rpower X p * (Rpower X p * Rpower (Y / X) p)) with (x * Rpower (Y / X) p) by (field; lra).
  apply Rle_trans with (x * (Y / X)); [apply Rmult_le_compat_l; lra|]. apply Rmult_le_reg_r with X; [lra|]. replace (x * (Y / X) * X) with (x * Y) by (field; lra). unfold X, Y. nra.
Qed.
Lemma um_pos r : good_row r -> 0.12 <= um r.
Proof. intros (H & _). unfold um. assert (0.12 = 12 / 10 ^ 8 * 10 ^ 6) as -> by lra. apply Rmult_le_compat_r; [apply pow_le; lra|exact H]. Qed.
Lemma rayleigh_pos r : good_row r -> 0 < um r ^ 4 * (115.6406 - 1.335 / um r ^ 2).
Proof.
  intros G. pose proof (um_pos r G) as U. assert (U2 : 0.0144 <= um r ^ 2) by nra. apply Rmult_lt_0_compat; [apply pow_lt; lra|].
  assert (1.335 / um r ^ 2 <= 100); [|lra]. apply Rmult_le_reg_r with (um r ^ 2); [lra|]. unfold Rdiv. rewrite Rmult_assoc, Rinv_l by lra. lra.
Qed.
(** Every coefficient is a fraction, and less light passes through more air or absorber. *)
Lemma rayleigh_le r p p' : good_row r -> p <= p' -> rayleigh r p' <= rayleigh r p.
Proof. intros G H. apply exp_le'. unfold Rdiv. apply Rmult_le_compat_r; [left; apply Rinv_0_lt_compat; now apply rayleigh_pos|lra]. Qed.
Lemma rayleigh_lt r p p' : good_row r -> p < p' -> rayleigh r p' < rayleigh r p.
Proof. intros G H. apply exp_increasing. unfold Rdiv. apply Rmult_lt_compat_r; [apply Rinv_0_lt_compat; now apply rayleigh_pos|lra]. Qed.
Lemma aerosol_le s s' al r p p' : 0 <= p <= p' -> 0 <= turbidity s <= turbidity s' -> aerosol s' al r p' <= aerosol s al r p.
Proof.
  intros Hp Ht. assert (H : p * turbidity s <= p' * turbidity s') by (apply Rmult_le_compat; lra).
  unfold aerosol. destruct (Rle_dec (um r) 0.5); apply exp_le'.
  - pose proof (Rpower_pos 2 (snd al - fst al)). pose proof (Rpower_pos (um r) (- fst al)).
    replace (- p' * turbidity s' * Rpower 2 (snd al - fst al) * Rpower (um r) (- fst al)) with (- (p' * turbidity s' * (Rpower 2 (snd al - fst al) * Rpower (um r) (- fst al)))) by ring.
    replace (- p * turbidity s * Rpower 2 (snd al - fst al) * Rpower (um r) (- fst al)) with (- (p * turbidity s * (Rpower 2 (snd al - fst al) * Rpower (um r) (- fst al)))) by ring.
    apply Ropp_le_contravar. apply Rmult_le_compat_r; [left; now apply Rmult_lt_0_compat|exact H].
  - pose proof (Rpower_pos (um r) (- snd al)). replace (- p' * turbidity s' * Rpower (um r) (- snd al)) with (- (p' * turbidity s' * Rpower (um r) (- snd al))) by ring.
    replace (- p * turbidity s * Rpower (um r) (- snd al)) with (- (p * turbidity s * Rpower (um r) (- snd al))) by ring. apply Ropp_le_contravar. apply Rmult_le_compat_r; lra.
Qed.
Lemma vapour_le s s' r m m' : good_row r -> 0 <= m <= m' -> 0 <= precipwater s <= precipwater s' -> vapour s' r m' <= vapour s r m.
Proof.
  intros (_ & _ & W & _) Hm Hw. assert (H : precipwater s * water r * m <= precipwater s' * water r * m').
  { apply Rmult_le_compat; [apply Rmult_le_pos; lra|lra|apply Rmult_le_compat_r; lra|lra]. }
  assert (H0 : 0 <= precipwater s * water r * m) by (repeat apply Rmult_le_pos; lra).
  unfold vapour. apply exp_le'. pose proof (saturating 20.07 0.45 _ _ ltac:(lra) ltac:(lra) (conj H0 H)) as Sa.
  replace (20.07 * precipwater s' * water r * m') with (20.07 * (precipwater s' * water r * m')) by ring. replace (20.07 * precipwater s * water r * m) with (20.07 * (precipwater s * water r * m)) by ring.
  replace (0.2385 * precipwater s' * water r * m') with (0.2385 * (precipwater s' * water r * m')) by ring. replace (0.2385 * precipwater s * water r * m) with (0.2385 * (precipwater s * water r * m)) by ring.
  unfold Rdiv in *. lra.
Qed.
Lemma ozone_le s s' r m m' : good_row r -> 0 <= m <= m' -> 0 <= ozone s <= ozone s' -> ozone_coeff s' r m' <= ozone_coeff s r m.
Proof.
  intros (_ & _ & _ & W & _) Hm Hw. unfold ozone_coeff. apply exp_le'. assert (ozone_abs r * ozone s * m <= ozone_abs r * ozone s' * m'); [|lra].
  apply Rmult_le_compat; [apply Rmult_le_pos; lra|lra|apply Rmult_le_compat_l; lra|lra].
Qed.
Lemma mixed_le r p p' : good_row r -> 0 <= p <= p' -> mixed r p' <= mixed r p.
Proof.
  intros (_ & _ & _ & _ & W) Hp. assert (H0 : 0 <= gas r * p) by (apply Rmult_le_pos; lra). assert (H : gas r * p <= gas r * p') by (apply Rmult_le_compat_l; lra).
  unfold mixed. apply exp_le'. pose proof (saturating 118.93 0.45 _ _ ltac:(lra) ltac:(lra) (conj H0 H)) as Sa.
  replace (118.93 * gas r * p') with (118.93 * (gas r * p')) by ring. replace (118.93 * gas r * p) with (118.93 * (gas r * p)) by ring.
  unfold Rdiv in *. lra.
Qed.
Lemma at_zero s al r : rayleigh r 0 = 1 /\ aerosol s al r 0 = 1 /\ vapour s r 0 = 1 /\ ozone_coeff s r 0 = 1 /\ mixed r 0 = 1.
Proof.
  unfold rayleigh, aerosol, vapour, ozone_coeff, mixed, Rdiv. repeat split; try (destruct (Rle_dec (um r) 0.5)); rewrite <- exp_0; f_equal; ring.
Qed.
(** The product of the five. *)
Definition passes (s : state) (al : R * R) (r : row) (am pam oam : R) : R :=
  rayleigh r pam * aerosol s al r pam * vapour s r am * ozone_coeff s r oam * mixed r pam.
Lemma aerosol_pos s al r p : 0 < aerosol s al r p.
Proof. unfold aerosol. destruct (Rle_dec _ _); apply exp_pos. Qed.
Lemma Rmult4 a b a' b' : 0 < a <= a' -> 0 < b <= b' -> 0 < a * b <= a' * b'.
Proof. intros H1 H2. split; [apply Rmult_lt_0_compat; lra|apply Rmult_le_compat; lra]. Qed.
Lemma passes_le s s' al r am am' pam pam' oam oam' : good_row r -> good_state s ->
  0 <= am <= am' -> 0 <= pam <= pam' -> 0 <= oam <= oam' ->
  ozone s <= ozone s' -> turbidity s <= turbidity s' -> precipwater s <= precipwater s' ->
  0 < passes s' al r am' pam' oam' <= passes s al r am pam oam.
Proof.
  intros G (P1 & P2 & P3 & P4) H1 H2 H3 H4 H5 H6. unfold passes. repeat apply Rmult4; (split; [try apply exp_pos; apply aerosol_pos|]).
  - apply rayleigh_le; [exact G|lra].
  - apply aerosol_le; lra.
  - apply vapour_le; [exact G|lra|lra].
  - apply ozone_le; [exact G|lra|lra].
  - apply mixed_le; [exact G|lra].
Qed.
Lemma irradiance_spec s al r : irradiance s al r = option_map (fun am => am_zero r * distance_factor (day_angle (dateAndTime s)) * passes s al r am (pressure_corrected s am) (ozone_am s)) (relative_am s).
Proof. unfold irradiance, passes. destruct (relative_am s); cbn [option_map]; [f_equal; ring|reflexivity]. Qed.
Lemma ozone_am_nonneg s : 0 <= ozone_am s.
Proof.
  unfold ozone_am. left. apply Rdiv_lt_0_compat; [lra|]. apply sqrt_lt_R0. pose proof (pow2_ge_0 (cos (acos (cos_zenith s)))). lra.
Qed.
Lemma pam_mono p p' am am' : 0 <= p <= p' -> 0 <= am <= am' -> 0 <= am * (p / 101325.33538686013) <= am' * (p' / 101325.33538686013).
Proof.
  intros H1 H2. assert (0 <= p / 101325.33538686013 <= p' / 101325.33538686013) by (unfold Rdiv; split; [apply Rmult_le_pos; [lra|left; apply Rinv_0_lt_compat; lra]|apply Rmult_le_compat_r; [left; apply Rinv_0_lt_compat; lra|lra]]).
  split; [apply Rmult_le_pos; lra|apply Rmult_le_compat; lra].
Qed.
Lemma distance_range a : 0.96 <= distance_factor a <= 1.04.
Proof.
  unfold distance_factor. pose proof (COS_bound a). pose proof (SIN_bound a). pose proof (COS_bound (2 * a)). pose proof (SIN_bound (2 * a)). lra.
Qed.
Lemma irradiance_passive s al r : good_row r -> good_state s ->
  0 <= nan_to_num (irradiance s al r) <= distance_factor (day_angle (dateAndTime s)) * am_zero r.
Proof.
  intros G Gs. rewrite irradiance_spec. pose proof (distance_range (day_angle (dateAndTime s))) as D. set (f := distance_factor _) in *. pose proof G as (_ & A & _).
  destruct (relative_am s) as [am|] eqn:E; cbn [option_map nan_to_num]; [|split; [lra|apply Rmult_le_pos; lra]].
  apply relative_am_nonneg in E. pose proof (ozone_am_nonneg s) as O. pose proof Gs as (P1 & _).
  destruct (passes_le s s al r 0 am 0 (pressure_corrected s am) 0 (ozone_am s) G Gs) as [L U]; try lra.
  { unfold pressure_corrected. pose proof (pam_mono (pressure s) (pressure s) 0 am ltac:(lra) ltac:(lra)). lra. }
  destruct (at_zero s al r) as (E1 & E2 & E3 & E4 & E5). unfold passes in U at 2. rewrite E1, E2, E3, E4, E5 in U. split.
  - apply Rmult_le_pos; [apply Rmult_le_pos; lra|lra].
  - rewrite (Rmult_comm f). rewrite <- (Rmult_1_r (am_zero r * f)) at 2. apply Rmult_le_compat_l; [apply Rmult_le_pos; lra|lra].
Qed.

(** Everything the atmosphere lets through is between nothing and what arrives outside,
    which differs by at most 4% from that at the mean distance of the sun; with the sun more
    than 93.885 degrees from the zenith it is nothing. *)
Theorem C142_passive_partial : forall file s m, aod_model s = Name m -> In m ["rural"; "maritime"; "tropospheric"]%string ->
  Forall good_row file -> good_state s ->
  exists ys, spectrum file s = Ok (map wavelength file, ys) /\
  Forall2 (fun r y => 0 <= y <= 1.04 * am_zero r) file ys /\
  (93.885 < zenith_degrees s -> Forall (fun y => y = 0) ys) /\
  (nondecreasing (map wavelength file) ->
   exists P, power_density file s = Ok P /\ 0 <= P <= 1.04 * np_trapz (map am_zero file) (map wavelength file)).
Proof.
  intros file s m Em Im Gf Gs.
  assert (X : exists cd, coefficients (aod_model s) = Ok cd) by (rewrite Em; destruct Im as [<- |[<- |[<- |[]]]]; eexists; reflexivity). destruct X as [cd Ecd].
  assert (K : known (aod_model s) = true) by (rewrite Em; destruct Im as [<- |[<- |[<- |[]]]]; reflexivity).
  assert (Es : spectrum file s = Ok (map wavelength file, map (fun r => nan_to_num (irradiance s (alphas s cd) r)) file)) by (unfold spectrum; rewrite K, Ecd; reflexivity).
  assert (B : forall r, In r file -> 0 <= nan_to_num (irradiance s (alphas s cd) r) <= 1.04 * am_zero r).
  { intros r Ir. rewrite Forall_forall in Gf. pose proof (irradiance_passive s (alphas s cd) r (Gf r Ir) Gs) as L. pose proof (distance_range (day_angle (dateAndTime s))). destruct (Gf r Ir) as (_ & A & _). nra. }
  exists (map (fun r => nan_to_num (irradiance s (alphas s cd) r)) file). split; [exact Es|]. split; [|split].
  - clear - B. induction file as [|r file IH]; cbn [map]; constructor; [apply B; now left|apply IH; intros; apply B; now right].
  - intros Z. apply Forall_forall. intros y Iy. apply in_map_iff in Iy as (r & <- & _). rewrite irradiance_spec, relative_am_spec. destruct (Rlt_dec _ 0); [reflexivity|lra].
  - intros Nd. exists (np_trapz (map (fun r => nan_to_num (irradiance s (alphas s cd) r)) file) (map wavelength file)). split; [unfold power_density; rewrite Es; reflexivity|]. split.
    + apply np_trapz_nonneg; [now rewrite !map_length| |exact Nd]. intros v Iv. apply in_map_iff in Iv as (r & <- & Ir). now apply B.
    + rewrite <- np_trapz_scale. apply np_trapz_le; try (now rewrite !map_length); [|exact Nd]. intros i Li. rewrite !map_map. rewrite map_length in Li.
      destruct (nth_error file i) as [r|] eqn:Er; [|apply nth_error_None in Er; lia].
      rewrite !(nth_indep _ 0 (nan_to_num (irradiance s (alphas s cd) r))) by (rewrite map_length; lia).
      rewrite (map_nth (fun r => nan_to_num (irradiance s (alphas s cd) r)) file r i). rewrite (nth_indep _ _ (1.04 * am_zero r)) by (rewrite map_length; lia). rewrite (map_nth (fun r => 1.04 * am_zero r) file r i).
      apply B. apply nth_In. lia.
Qed.
(** Urban aerosols fail. *)
Theorem C142_models_refuted : (exists m, known m = true /\ is_ok (coefficients m) = false) /\
  (forall file s, aod_model s = Name "urban" -> spectrum file s = Err UnboundLocalError) /\
  (forall file s c d, aod_model s = Coefficients c d -> spectrum file s = Err AssertionError).
Proof.
  split; [exists (Name "urban"); now split|]. split; intros file s *; [intros E|intros E]; unfold spectrum; rewrite E; reflexivity.
Qed.
(** A clearer atmosphere lets more light through: same place and time, less of anything. *)
Theorem C142_clearer : forall s s' al r, good_row r -> good_state s ->
  latitude s = latitude s' -> longitude s = longitude s' -> dateAndTime s = dateAndTime s' ->
  pressure s <= pressure s' -> ozone s <= ozone s' -> turbidity s <= turbidity s' -> precipwater s <= precipwater s' ->
  nan_to_num (irradiance s' al r) <= nan_to_num (irradiance s al r).
Proof.
  intros s s' al r G Gs E1 E2 E3 H1 H2 H3 H4.
  assert (Ez : cos_zenith s' = cos_zenith s) by (unfold cos_zenith, hour_angle_degrees; now rewrite E1, E2, E3).
  assert (Ea : relative_am s' = relative_am s) by (unfold relative_am, zenith_degrees; now rewrite Ez).
  assert (Eo : ozone_am s' = ozone_am s) by (unfold ozone_am; now rewrite Ez). rewrite !irradiance_spec, Ea, Eo, <- E3.
  destruct (relative_am s) as [am|] eqn:E; cbn [option_map nan_to_num]; [|lra]. pose proof (relative_am_nonneg s am E) as Pm. pose proof Gs as (P1 & _). pose proof G as (_ & A & _).
  pose proof (distance_range (day_angle (dateAndTime s))). apply Rmult_le_compat_l; [apply Rmult_le_pos; lra|]. pose proof (ozone_am_nonneg s).
  apply passes_le; try assumption; try lra. unfold pressure_corrected. apply pam_mono; lra.
Qed.

(** * C143: the position of the sun *)

(** Between one degree from the zenith and the horizon the path through the air is longer the
    lower the sun. *)
Lemma sin_1 : 0.014 <= sin (PI / 180).
Proof.
  pose proof (sin_nx 60 (PI / 180)) as H. replace (INR 60 * (PI / 180)) with (PI / 3) in H by (change (INR 60) with (IZR 60) || (rewrite INR_IZR_INZ; cbn [BinInt.Z.of_nat]; cbv); field).
  rewrite sin_PI3 in H. pose proof PI_3_4. assert (0 < sin (PI / 180)) by (apply sin_gt_0; lra). rewrite (Rabs_pos_eq (sin (PI / 180))) in H by lra.
  assert (1.7 <= sqrt 3) by (apply Rsqr_incr_0_var; [unfold Rsqr; rewrite sqrt_sqrt; lra|apply sqrt_pos]). pose proof (Rle_abs (sqrt 3 / 2)). 
  replace (INR 60) with 60 in H by (rewrite INR_IZR_INZ; reflexivity). lra.
Qed.
Lemma depth_slope z : 1 <= z <= 90 -> - (sin (z * PI / 180) * (PI / 180)) + 0.15 * (1.253 * Rpower (93.885 - z) (- 2.253)) < 0.
Proof.
  intros Hz. pose proof PI_3_4 as P. set (u := 93.885 - z). assert (Hu : 3.885 <= u) by (unfold u; lra).
  assert (B : Rpower u (- 2.253) <= / (u * u)).
  { replace (u * u) with (Rpower u 2) by (replace 2 with (1 + 1) by ring; rewrite Rpower_plus, Rpower_1 by lra; reflexivity). rewrite <- Rpower_Ropp. apply Rle_Rpower; lra. }
  assert (S0 : sin (PI / 180) <= sin (z * PI / 180)) by (apply sin_incr_1; nra). pose proof sin_1 as S1.
  destruct (Rle_dec z 60) as [L|N].
  - assert (/ (u * u) <= / (33 * 33)) by (apply Rinv_le_contravar; [lra|]; apply Rmult_le_compat; unfold u; lra).
    assert (0.014 * (3 / 180) <= sin (z * PI / 180) * (PI / 180)) by (apply Rmult_le_compat; lra). lra.
  - assert (/ (u * u) <= / (3.885 * 3.885)) by (apply Rinv_le_contravar; [lra|]; apply Rmult_le_compat; lra).
    assert (S3 : sin (PI / 3) <= sin (z * PI / 180)) by (apply sin_incr_1; nra). rewrite sin_PI3 in S3.
    assert (1.73 <= sqrt 3) by (apply Rsqr_incr_0_var; [unfold Rsqr; rewrite sqrt_sqrt; lra|apply sqrt_pos]).
    assert (0.865 * (3 / 180) <= sin (z * PI / 180) * (PI / 180)) by (apply Rmult_le_compat; lra). lra.
Qed.
Lemma depth_decreasing z z' : 1 <= z <= z' -> z' <= 90 -> depth z' <= depth z.
Proof.
  intros H H'. destruct (Req_dec z z') as [-> |N]; [lra|].
  destruct (MVT_gen depth z z' (fun z => - (sin (z * PI / 180) * (PI / 180)) + 0.15 * (1.253 * Rpower (93.885 - z) (- 2.253)))) as (c & Hc & E).
  - intros x Hx. rewrite Rmin_left, Rmax_right in Hx by lra. unfold depth, Rpower. auto_derive; [lra|].
    assert (E2 : exp (-2.253 * ln (93.885 - x)) = exp (-1.253 * ln (93.885 - x)) * / (93.885 - x)).
    { replace (-2.253 * ln (93.885 - x)) with (-1.253 * ln (93.885 - x) + - ln (93.885 - x)) by lra. rewrite exp_plus, exp_Ropp, exp_ln by lra. reflexivity. }
    rewrite E2. unfold Rminus. replace (x * PI * / 180) with (x * PI / 180) by reflexivity. set (e := exp _). set (i := / (93.885 + - x)). clearbody e i. set (si := sin _). clearbody si. lra.
  - intros x Hx. rewrite Rmin_left, Rmax_right in Hx by lra. apply derivable_continuous_pt. 
    assert (D : ex_derive depth x) by (unfold depth, Rpower; auto_derive; lra). now apply ex_derive_Reals_0.
  - rewrite Rmin_left, Rmax_right in Hc by lra. pose proof (depth_slope c ltac:(lra)) as Sl. nra.
Qed.
(** At the same day and in the same atmosphere, a higher sun gives more light at every
    wavelength. *)
Theorem C143_height : forall s s' al r, good_row r -> good_state s ->
  dateAndTime s = dateAndTime s' -> pressure s = pressure s' -> ozone s = ozone s' -> turbidity s = turbidity s' -> precipwater s = precipwater s' ->
  1 <= zenith_degrees s <= zenith_degrees s' -> zenith_degrees s' <= 90 ->
  nan_to_num (irradiance s' al r) <= nan_to_num (irradiance s al r).
Proof.
  intros s s' al r G Gs E1 E2 E3 E4 E5 H H'. rewrite !irradiance_spec, !relative_am_spec.
  destruct (Rlt_dec (93.885 - zenith_degrees s) 0); [lra|]. destruct (Rlt_dec (93.885 - zenith_degrees s') 0); [lra|].
  destruct (Req_EM_T (93.885 - zenith_degrees s) 0); [lra|]. destruct (Req_EM_T (93.885 - zenith_degrees s') 0); [lra|]. cbn [option_map nan_to_num].
  pose proof (depth_pos (zenith_degrees s) ltac:(lra)) as D1. pose proof (depth_pos (zenith_degrees s') ltac:(lra)) as D2. pose proof (depth_decreasing _ _ H H') as D.
  assert (M : 0 <= 1 / depth (zenith_degrees s) <= 1 / depth (zenith_degrees s')).
  { unfold Rdiv. split; [apply Rmult_le_pos; [lra|left; now apply Rinv_0_lt_compat]|]. apply Rmult_le_compat_l; [lra|]. apply Rinv_le_contravar; lra. }
  pose proof Gs as (P1 & _). pose proof G as (_ & A & _). rewrite <- E1. pose proof (distance_range (day_angle (dateAndTime s))). apply Rmult_le_compat_l; [apply Rmult_le_pos; lra|].
  apply passes_le; try assumption; try lra.
  - unfold pressure_corrected. apply pam_mono; lra.
  - split; [apply ozone_am_nonneg|]. unfold ozone_am. rewrite !(cos_acos _ (cos_zenith_bound _)), !cos_degrees. pose proof PI_3_4.
    assert (0 <= cos (zenith_degrees s' * PI / 180)) by (apply cos_ge_0; nra).
    assert (cos (zenith_degrees s' * PI / 180) <= cos (zenith_degrees s * PI / 180)) by (apply cos_decr_1; nra).
    unfold Rdiv at 1 4. apply Rmult_le_compat_l; [lra|]. apply Rinv_le_contravar; [apply sqrt_lt_R0; pose proof (pow2_ge_0 (cos (zenith_degrees s' * PI / 180))); lra|]. apply sqrt_le_1_alt. apply Rplus_le_compat_r. apply pow_incr. lra.
Qed.
(** A state moved along its meridian. *)
Definition moved (s : state) (lat : R) : state :=
  {| latitude := lat; longitude := longitude s; dateAndTime := dateAndTime s; aod_model := aod_model s; pressure := pressure s; humidity := humidity s; ozone := ozone s; turbidity := turbidity s; precipwater := precipwater s |}.
(** Noon of the 30th of June at the meridian of Greenwich. *)
Definition june : datetime := {| year := 2011; month := 6; day := 30; seconds := 43200 |}.
Definition greenwich (m : string) (p hu oz tu w lat : R) : state :=
  {| latitude := lat; longitude := 0; dateAndTime := june; aod_model := Name m; pressure := p; humidity := hu; ozone := oz; turbidity := tu; precipwater := w |}.
Lemma june_day : day_angle june = PI - 7 * PI / 365.
Proof. unfold day_angle. change (day_number june) with 180%nat. rewrite INR_IZR_INZ. change (IZR (BinInt.Z.of_nat 180)) with 180. field. Qed.
Lemma cos_lb x : 1 - x ^ 2 / 2 <= cos x.
Proof.
  replace x with (2 * (x / 2)) at 2 by field. rewrite cos_2a_sin. assert (Rabs (sin (x / 2)) <= Rabs (x / 2)).
  { destruct (Rle_dec 0 (x / 2)) as [H|H].
    - rewrite (Rabs_pos_eq (x / 2)) by lra. apply Rabs_le. split; [|now apply sin_le_x]. rewrite <- (Ropp_involutive (sin _)), <- sin_neg. apply Ropp_le_contravar.
      destruct (Rle_dec (x / 2) PI) as [L|N]; [rewrite sin_neg; pose proof (sin_ge_0 (x / 2) H L); lra|]. pose proof (SIN_bound (- (x / 2))). pose proof PI_3_4. lra.
    - rewrite <- (Rabs_Ropp (sin _)), <- sin_neg, <- (Rabs_Ropp (x / 2)). set (y := - (x / 2)). assert (Hy : 0 <= y) by (unfold y; lra). rewrite (Rabs_pos_eq y) by lra. apply Rabs_le. split; [|now apply sin_le_x].
      destruct (Rle_dec y PI) as [L|N]; [pose proof (sin_ge_0 y Hy L); lra|]. pose proof (SIN_bound y). pose proof PI_3_4. lra. }
  apply Rsqr_le_abs_1 in H. unfold Rsqr in H. nra.
Qed.
Lemma june_declination : 1 / 3 <= declination (day_angle june) <= 1 / 2.
Proof.
  rewrite june_day. set (e := 7 * PI / 365). pose proof PI_3_4. assert (He : 0 <= e <= 0.0768) by (unfold e; lra).
  unfold declination. set (a := PI - e). assert (Ca : cos a = - cos e) by (unfold a; rewrite Rtrigo_facts.cos_pi_minus; reflexivity). assert (Sa : sin a = sin e) by (unfold a; apply Rtrigo_facts.sin_pi_minus).
  rewrite Ca, Sa. pose proof (cos_lb e). assert (e ^ 2 <= 0.0059) by nra. pose proof (COS_bound e). pose proof (sin_le_x e ltac:(lra)). pose proof (sin_ge_0 e ltac:(lra) ltac:(lra)).
  pose proof (COS_bound (2 * a)). pose proof (SIN_bound (2 * a)). pose proof (COS_bound (3 * a)). pose proof (SIN_bound (3 * a)). lra.
Qed.
Lemma greenwich_hour m p hu oz tu w lat : Rabs (hour_angle_degrees (greenwich m p hu oz tu w lat)) <= 6.
Proof.
  unfold hour_angle_degrees, greenwich. cbn [dateAndTime longitude seconds june].
  replace (0 / PI * 180) with 0 by (unfold Rdiv; ring). replace (0 / 15) with 0 by (unfold Rdiv; ring).
  assert (T0 : trunc 0 = 0) by (unfold trunc; destruct (Rle_dec 0 0); [|lra]; rewrite (Int_part_spec 0 0) by lra; reflexivity).
  rewrite T0. set (a := day_angle _). unfold equation_of_time. pose proof (COS_bound a). pose proof (SIN_bound a). pose proof (COS_bound (2 * a)). pose proof (SIN_bound (2 * a)). apply Rabs_le. lra.
Qed.

Lemma place m p hu oz tu w z1 : 45 <= z1 <= 93.8 -> exists lat, - (PI / 2) < lat < 0 /\ zenith_degrees (greenwich m p hu oz tu w lat) = z1.
Proof.
  intros Hz1. set (z0 := z1 * PI / 180). pose proof PI_3_4 as P. pose proof june_declination as D. set (d := declination (day_angle june)) in *.
  pose proof (greenwich_hour m p hu oz tu w 0) as Hh. set (t := hour_angle_degrees (greenwich m p hu oz tu w 0)) in *.
  assert (Ht : forall lat, hour_angle_degrees (greenwich m p hu oz tu w lat) = t) by reflexivity.
  assert (Ec : forall lat, cos_zenith (greenwich m p hu oz tu w lat) = cos d * cos lat * cos (t / 180 * PI) + sin d * sin lat) by reflexivity.
  assert (C0 : - 0.085 <= cos z0 <= 0.71).
  { split.
    - apply Rle_trans with (cos (93.8 * PI / 180)); [|apply cos_decr_1; unfold z0; nra]. replace (93.8 * PI / 180) with (PI / 2 + 3.8 * PI / 180) by lra. rewrite <- (Ropp_involutive (cos _)), <- sin_cos. pose proof (sin_le_x (3.8 * PI / 180) ltac:(lra)). lra.
    - apply Rle_trans with (cos (PI / 4)); [apply cos_decr_1; unfold z0; nra|]. rewrite cos_PI4. assert (1.41 <= sqrt 2) by (apply Rsqr_incr_0_var; [unfold Rsqr; rewrite sqrt_sqrt; lra|apply sqrt_pos]).
      apply Rmult_le_reg_r with (sqrt 2); [lra|]. unfold Rdiv. rewrite Rmult_assoc, Rinv_l by lra. lra. }
  assert (Sd : 1 / 4 <= sin d).
  { apply Rle_trans with (sin (PI / 12)); [|apply sin_incr_1; lra]. pose proof (sin_nx 2 (PI / 12)) as H. replace (INR 2 * (PI / 12)) with (PI / 6) in H by (cbn [INR]; field). rewrite sin_PI6 in H. pose proof (sin_gt_0 (PI / 12) ltac:(lra) ltac:(lra)) as Sp. rewrite (Rabs_pos_eq (sin _)) in H by lra. pose proof (Rle_abs (1 / 2)). cbn [INR] in H. lra. }
  assert (Cd : 0.875 <= cos d) by (pose proof (cos_lb d); nra).
  assert (Ch : 0.98 <= cos (t / 180 * PI)).
  { apply Rabs_le_between in Hh. pose proof (cos_lb (t / 180 * PI)) as L. assert (- 0.14 <= t / 180 * PI <= 0.14) by nra. nra. }
  set (f := fun lat => cos d * cos lat * cos (t / 180 * PI) + sin d * sin lat - cos z0).
  destruct (IVT_gen f (- (PI / 2)) 0 0) as (lat & Hl & El).
  - intros x. apply derivable_continuous_pt, ex_derive_Reals_0. unfold f. generalize (cos d) (sin d) (cos (t / 180 * PI)) (cos z0). intros. auto_derive. exact I.
  - assert (F1 : f (- (PI / 2)) < 0) by (unfold f; rewrite cos_neg, sin_neg, cos_PI2, sin_PI2; lra).
    assert (F2 : 0 < f 0) by (unfold f; rewrite cos_0, sin_0, Rmult_1_r, Rmult_0_r; assert (0.875 * 0.98 <= cos d * cos (t / 180 * PI)) by (apply Rmult_le_compat; lra); lra). rewrite Rmin_left, Rmax_right by lra. lra.
  - rewrite Rmin_left, Rmax_right in Hl by lra. assert (F1 : f (- (PI / 2)) < 0) by (unfold f; rewrite cos_neg, sin_neg, cos_PI2, sin_PI2; lra).
    assert (F2 : 0 < f 0) by (unfold f; rewrite cos_0, sin_0, Rmult_1_r, Rmult_0_r; assert (0.875 * 0.98 <= cos d * cos (t / 180 * PI)) by (apply Rmult_le_compat; lra); lra).
    exists lat. split; [split; [destruct (Req_dec lat (- (PI / 2))) as [-> |]; lra|destruct (Req_dec lat 0) as [-> |]; lra]|].
    unfold zenith_degrees. rewrite Ec. replace (cos d * cos lat * cos (t / 180 * PI) + sin d * sin lat) with (cos z0) by (unfold f in El; lra). rewrite acos_cos by (unfold z0; nra). unfold z0. field. lra.
Qed.
(** With the sun just under the horizon the path through the air is shorter than anywhere
    with the sun above it. *)
Theorem C143_horizon_refuted : exists s, good_state s /\ - (PI / 2) < latitude s < PI / 2 /\ 90 < zenith_degrees s /\
  forall al r, good_row r -> 0 < am_zero r -> ozone_abs r = 0 ->
  forall lat, zenith_degrees (moved s lat) <= 90 ->
  nan_to_num (irradiance (moved s lat) al r) < nan_to_num (irradiance s al r).
Proof.
  destruct (place "rural" 101325 0.3 0.00034 0.15 0.00142 93.785 ltac:(lra)) as (lat0 & Hl & Hz). set (s := greenwich _ _ _ _ _ _ _) in *.
  pose proof PI_3_4 as P. assert (Gs : good_state s) by (unfold good_state; cbn; lra). exists s. split; [exact Gs|]. split; [cbn [latitude greenwich s]; lra|]. split; [lra|].
  intros al r G A O lat Hm. pose proof (zenith_range (moved s lat)) as Zr. rewrite !irradiance_spec, !relative_am_spec, Hz.
  destruct (Rlt_dec (93.885 - 93.785) 0); [lra|]. destruct (Req_EM_T (93.885 - 93.785) 0); [lra|].
  set (z := zenith_degrees (moved s lat)) in *. destruct (Rlt_dec (93.885 - z) 0); [lra|]. destruct (Req_EM_T (93.885 - z) 0); [lra|]. cbn [option_map nan_to_num].
  assert (D1 : 1.3 <= depth 93.785).
  { unfold depth. replace (93.785 * PI / 180) with (PI / 2 + 3.785 * PI / 180) by lra. rewrite <- (Ropp_involutive (cos _)), <- sin_cos. pose proof (sin_le_x (3.785 * PI / 180) ltac:(lra)).
    assert (10 <= Rpower (93.885 - 93.785) (- 1.253)); [|lra]. replace (93.885 - 93.785) with (/ 10) by lra. unfold Rpower. rewrite ln_Rinv by lra. replace (- 1.253 * - ln 10) with (1.253 * ln 10) by lra.
    rewrite <- (exp_ln 10) at 1 by lra. apply exp_le'. assert (0 <= ln 10) by (rewrite <- ln_1; left; apply ln_increasing; lra). lra. }
  assert (D2 : 0 < depth z <= 1.1).
  { split; [apply depth_pos; lra|]. unfold depth. pose proof (COS_bound (z * PI / 180)). assert (Rpower (93.885 - z) (- 1.253) <= 1 / 2); [|lra].
    apply Rle_trans with (/ (93.885 - z)); [|apply Rle_trans with (/ 2); [apply Rinv_le_contravar; lra|lra]]. rewrite <- (Rpower_1 (93.885 - z)) at 2 by lra. rewrite <- Rpower_Ropp. apply Rle_Rpower; lra. }
  assert (M : 0 < 1 / depth 93.785 < 1 / depth z). { unfold Rdiv. split; [apply Rmult_lt_0_compat; [lra|apply Rinv_0_lt_compat; lra]|]. apply Rmult_lt_compat_l; [lra|]. apply Rinv_lt_contravar; [apply Rmult_lt_0_compat; lra|lra]. }
  change (dateAndTime (moved s lat)) with (dateAndTime s). pose proof (distance_range (day_angle (dateAndTime s))). apply Rmult_lt_compat_l; [apply Rmult_lt_0_compat; lra|].
  set (a := 1 / depth 93.785) in *. set (b := 1 / depth z) in *. clearbody a b. unfold passes.
  assert (Op : forall s o, ozone_coeff s r o = 1) by (intros; unfold ozone_coeff; rewrite O, <- exp_0; f_equal; ring). rewrite !Op.
  assert (Pp : pressure_corrected s a < pressure_corrected (moved s lat) b) by (unfold pressure_corrected; cbn [pressure moved greenwich s]; lra).
  assert (P0 : 0 <= pressure_corrected s a) by (unfold pressure_corrected; cbn [pressure greenwich s]; lra).
  rewrite !Rmult_1_r, !Rmult_assoc.
  assert (R1 : rayleigh r (pressure_corrected (moved s lat) b) < rayleigh r (pressure_corrected s a)) by now apply rayleigh_lt.
  assert (R2 : 0 < aerosol (moved s lat) al r (pressure_corrected (moved s lat) b) * (vapour (moved s lat) r b * mixed r (pressure_corrected (moved s lat) b))
            <= aerosol s al r (pressure_corrected s a) * (vapour s r a * mixed r (pressure_corrected s a))).
  { apply Rmult4; [|apply Rmult4]; (split; [try apply exp_pos; apply aerosol_pos|]).
    - apply aerosol_le; [lra|]. cbn [turbidity moved greenwich s]. lra.
    - apply vapour_le; [exact G|lra|]. cbn [precipwater moved greenwich s]. lra.
    - apply mixed_le; [exact G|lra]. }
  pose proof (exp_pos (- pressure_corrected (moved s lat) b / (um r ^ 4 * (115.6406 - 1.335 / um r ^ 2)))) as R0. fold (rayleigh r (pressure_corrected (moved s lat) b)) in R0. nra.
Qed.

(** ** The date *)

(** The day after. *)
Definition next (d : datetime) : datetime :=
  if (day d <? month_length (year d) (month d))%nat then {| year := year d; month := month d; day := S (day d); seconds := seconds d |}
  else if (month d <? 12)%nat then {| year := year d; month := S (month d); day := 1; seconds := seconds d |}
  else {| year := (year d + 1)%Z; month := 1; day := 1; seconds := seconds d |}.
Definition valid (d : datetime) : Prop := (1 <= month d <= 12)%nat /\ (1 <= day d <= month_length (year d) (month d))%nat.
(** The angle advances by a 365th of a circle every day of a year, but the first of January
    has not the angle zero of the reference: it lags by one day all year. *)
Theorem C143_day_partial : forall d, valid d ->
  (year (next d) = year d -> day_angle (next d) = day_angle d + 2 * PI / 365) /\
  (year (next d) <> year d -> month (next d) = 1%nat /\ day (next d) = 1%nat /\ day_angle (next d) = - (2 * PI / 365)) /\
  (day_number d < 366)%nat.
Proof.
  intros d [Vm Vd]. unfold next. destruct (day d <? month_length (year d) (month d))%nat eqn:E1; [|destruct (month d <? 12)%nat eqn:E2]; cbn [year month day].
  - split; [intros _|split; [intros N; now elim N|]].
    + unfold day_angle, day_number. cbn [year month day]. replace (S (day d) - 1)%nat with (S (day d - 1)) by lia. rewrite !plus_INR, S_INR. field.
    + unfold day_number. destruct d as [y m da se]; cbn [year month day] in *. do 13 (destruct m as [|m]; [try lia; cbn in *; destruct (leap y); lia|]). lia.
  - apply Nat.ltb_ge in E1. apply Nat.ltb_lt in E2. split; [intros _|split; [intros N; now elim N|]].
    + unfold day_angle, day_number. cbn [year month day]. replace (S (month d) - 1)%nat with (S (month d - 1)) by lia. rewrite seq_S, map_app, list_sum_app. cbn [map list_sum]. replace (1 + (month d - 1))%nat with (month d) by lia.
      replace (day d) with (month_length (year d) (month d)) by lia. assert (1 <= month_length (year d) (month d))%nat by lia. cbn [Nat.sub fold_right]. replace (list_sum [month_length (year d) (month d)]) with (month_length (year d) (month d)) by (cbn; lia). rewrite !plus_INR, minus_INR by lia. cbn [INR]. field.
    + unfold day_number. destruct d as [y m da se]; cbn [year month day] in *. do 13 (destruct m as [|m]; [try lia; cbn in *; destruct (leap y); lia|]). lia.
  - split; [lia|]. split; [intros _; split; [reflexivity|split; [reflexivity|]]|].
    + unfold day_angle, day_number. cbn. field.
    + unfold day_number. destruct d as [y m da se]; cbn [year month day] in *. do 13 (destruct m as [|m]; [try lia; cbn in *; destruct (leap y); lia|]). lia.
Qed.
(** The calendar: the usual closed formulas for the day of the year (with the divisions
    rounding down) and for the number of days before a year. *)
Definition day_of_year (leap_year : bool) (m d : Z) : Z :=
  (275 * m / 9 + d - (if leap_year then 1 else 2) * ((m + 9) / 12) - 30)%Z.
Definition days_before (y : Z) : Z := (365 * (y - 1) + (y - 1) / 4 - (y - 1) / 100 + (y - 1) / 400)%Z.
Lemma div_step y n : (0 < n)%Z -> (y / n - (y - 1) / n = if y mod n =? 0 then 1 else 0)%Z.
Proof.
  intros Pn. destruct (Z.eqb_spec (y mod n) 0) as [E|E]; pose proof (Z.div_mod y n ltac:(lia)) as D; pose proof (Z.mod_pos_bound y n Pn) as B.
  - rewrite E in D. replace ((y - 1) / n)%Z with (y / n - 1)%Z; [lia|]. apply Z.div_unique with (n - 1)%Z; lia.
  - replace ((y - 1) / n)%Z with (y / n)%Z; [lia|]. apply Z.div_unique with (y mod n - 1)%Z; lia.
Qed.
Theorem C143_calendar : forall d, valid d ->
  let l := (days_before (year d + 1) - days_before (year d) =? 366)%Z in
  (Z.of_nat (day_number d) + 1 = day_of_year l (Z.of_nat (month d)) (Z.of_nat (day d)))%Z /\
  (days_before (year d + 1) - days_before (year d) = 365 \/ days_before (year d + 1) - days_before (year d) = 366)%Z.
Proof.
  intros d [Vm Vd] l.
  assert (L : (days_before (year d + 1) - days_before (year d) = if leap (year d) then 366 else 365)%Z).
  { unfold days_before. pose proof (div_step (year d) 4 ltac:(lia)) as A. pose proof (div_step (year d) 100 ltac:(lia)) as B.
    pose proof (div_step (year d) 400 ltac:(lia)) as D. replace (year d + 1 - 1)%Z with (year d) by lia.
    assert (H1 : (year d mod 400 = 0 -> year d mod 100 = 0)%Z).
    { rewrite !Z.mod_divide by lia. apply Z.divide_trans. now exists 4%Z. }
    assert (H2 : (year d mod 100 = 0 -> year d mod 4 = 0)%Z).
    { rewrite !Z.mod_divide by lia. apply Z.divide_trans. now exists 25%Z. }
    unfold leap. destruct (Z.eqb_spec (year d mod 4) 0) as [E4|E4], (Z.eqb_spec (year d mod 100) 0) as [E1|E1], (Z.eqb_spec (year d mod 400) 0) as [E5|E5];
      cbn [andb orb negb]; try lia; exfalso; auto. }
  assert (El : l = leap (year d)) by (unfold l; rewrite L; destruct (leap (year d)); reflexivity).
  split; [|rewrite L; destruct (leap (year d)); auto]. rewrite El. clear l El L.
  destruct d as [y m da se]; cbn [year month day] in *. unfold day_number, month_length in *. cbn [year month day].
  unfold day_of_year.
  do 13 (destruct m as [|m]; [try lia;
    repeat match goal with |- context [(?a / ?b)%Z] => let v := eval vm_compute in (a / b)%Z in change (a / b)%Z with v end;
    cbn [seq map list_sum fold_right Nat.sub] in *; destruct (leap y); lia|]). lia.
Qed.
Example C143_calendar_example : valid {| year := 2012; month := 12; day := 31; seconds := 0 |} /\
  day_number {| year := 2012; month := 12; day := 31; seconds := 0 |} = 365%nat /\
  day_number {| year := 1900; month := 12; day := 31; seconds := 0 |} = 364%nat.
Proof. split; [unfold valid; cbn; lia|]. split; reflexivity. Qed.
Theorem C143_day_refuted : exists d, valid d /\ month d = 1%nat /\ day d = 1%nat /\ day_angle d <> 0 /\
  forall y, day_angle {| year := y; month := 1; day := 2; seconds := seconds d |} = 0.
Proof.
  exists {| year := 2011; month := 1; day := 1; seconds := 0 |}. split; [unfold valid; cbn; lia|]. split; [reflexivity|]. split; [reflexivity|]. split.
  - unfold day_angle, day_number. cbn. pose proof PI_3_4. lra.
  - intros y. unfold day_angle, day_number. cbn. field.
Qed.

(** ** The place *)

(** Within a time zone of 15 degrees the sun is further in its course the further west the
    place is: the sign of the longitude is that of the west, whereas the default object has
    Coventry at -1.56 degrees east. *)
Theorem C143_east_refuted : (forall s s', dateAndTime s = dateAndTime s' ->
    trunc (longitude s / PI * 180 / 15) = trunc (longitude s' / PI * 180 / 15) ->
    hour_angle_degrees s' - hour_angle_degrees s = - ((longitude s' - longitude s) / PI * 180)) /\
  exists s s', dateAndTime s = dateAndTime s' /\ latitude s = latitude s' /\ 0 <= longitude s < longitude s' /\ longitude s' < 15 * PI / 180 /\ hour_angle_degrees s' < hour_angle_degrees s.
Proof.
  assert (G : forall s s', dateAndTime s = dateAndTime s' ->
    trunc (longitude s / PI * 180 / 15) = trunc (longitude s' / PI * 180 / 15) ->
    hour_angle_degrees s' - hour_angle_degrees s = - ((longitude s' - longitude s) / PI * 180)).
  { intros s s' E1 E2. unfold hour_angle_degrees. rewrite E1, E2. cbv zeta. pose proof PI_3_4. field. lra. }
  split; [exact G|]. pose proof PI_3_4 as P. set (s := greenwich "rural" 101325 0.3 0.00034 0.15 0.00142 1). set (s' := {| latitude := 1; longitude := PI / 36; dateAndTime := june; aod_model := Name "rural"; pressure := 101325; humidity := 0.3; ozone := 0.00034; turbidity := 0.15; precipwater := 0.00142 |}).
  exists s, s'. split; [reflexivity|]. split; [reflexivity|]. split; [cbn; lra|]. split; [cbn; lra|]. 
  assert (E : hour_angle_degrees s' - hour_angle_degrees s = - ((longitude s' - longitude s) / PI * 180)).
  { apply G; [reflexivity|]. cbn [longitude s s' greenwich]. replace (0 / PI * 180 / 15) with 0 by (unfold Rdiv; ring). replace (PI / 36 / PI * 180 / 15) with (/ 3) by (field; lra).
    unfold trunc. destruct (Rle_dec 0 0); [|lra]. destruct (Rle_dec 0 (/ 3)); [|lra]. rewrite (Int_part_spec 0 0), (Int_part_spec (/ 3) 0) by lra. reflexivity. }
  cbn [longitude s s' greenwich] in E. replace ((PI / 36 - 0) / PI * 180) with 5 in E by (field; lra). lra.
Qed.

(** ** Joules *)

(** The spectrum per J carries the same power as that per eV, but the energies are not those
    of the photons: 1.6e-19 is not the electron charge of the rest of the package. *)
Theorem C143_joules_partial : forall e y, np_trapz (snd (joules e y)) (fst (joules e y)) = np_trapz y e.
Proof.
  unfold joules. cbn [fst snd]. intros e y. revert e. induction y as [|a [|b y] IH]; intros [|e0 [|e1 e]]; try reflexivity. specialize (IH (e1 :: e)). cbn [map] in *. rewrite !np_trapz_cons, IH. field.
Qed.
Theorem C143_joules_refuted : exists e, 0 < e /\ fst (joules [e] [1]) <> [e * q].
Proof. exists 1. split; [lra|]. unfold joules. cbn [fst map]. intros E. injection E as E. revert E. with_strategy transparent [q] unfold q. intros E. lra. Qed.

(** Coventry with the default object, and a table of two lines. *)
Definition coventry : state := {| latitude := 52.39 / 180 * PI; longitude := -1.56 / 180 * PI; dateAndTime := {| year := 2011; month := 6; day := 30; seconds := 45000 |}; aod_model := Name "rural";
  pressure := 103000; humidity := 0.3; ozone := 0.00034; turbidity := 0.15; precipwater := 0.00142 |}.
Definition two_lines : list row := load [(3.05 / 10 ^ 7, 5.583 * 10 ^ 8, 0, 480, 0); (3.1 / 10 ^ 7, 6.22 * 10 ^ 8, 0, 270, 0)].
Example C142_case : exists P, power_density two_lines coventry = Ok P /\ 0 <= P <= 1.04 * np_trapz [5.583 * 10 ^ 8; 6.22 * 10 ^ 8] [3.05 / 10 ^ 7; 3.1 / 10 ^ 7].
Proof.
  destruct (C142_passive_partial two_lines coventry "rural" eq_refl) as (ys & _ & _ & _ & H).
  - cbn. tauto.
  - unfold two_lines, load, good_row. cbn [map]. repeat constructor; cbn; lra.
  - unfold good_state; cbn; lra.
  - apply H. apply nondecreasing_step. intros i Hi. cbn [length map two_lines load] in Hi. destruct i as [|i]; [|lia]. cbn. lra.
Qed.
Example C143_case : forall m p hu oz tu w al r, good_row r -> 0 <= p -> 0 <= oz -> 0 <= tu -> 0 <= w ->
  exists lat lat', zenith_degrees (greenwich m p hu oz tu w lat) = 45 /\ zenith_degrees (greenwich m p hu oz tu w lat') = 60 /\
  nan_to_num (irradiance (greenwich m p hu oz tu w lat') al r) <= nan_to_num (irradiance (greenwich m p hu oz tu w lat) al r).
Proof.
  intros m p hu oz tu w al r G H1 H2 H3 H4. destruct (place m p hu oz tu w 45 ltac:(lra)) as (lat & _ & E). destruct (place m p hu oz tu w 60 ltac:(lra)) as (lat' & _ & E').
  exists lat, lat'. split; [exact E|]. split; [exact E'|]. apply C143_height; try reflexivity; try assumption; [unfold good_state; cbn; lra|rewrite E, E'; lra|rewrite E'; lra].
Qed.

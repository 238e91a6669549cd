(** C181: bulk bands along a line and the masses fitted to them. *)
From Coq Require Import Reals Lra Lia Psatz String List Bool Arith Permutation Sorted.
From Coquelicot Require Import Coquelicot.
From Verif Require Import Common PhysConst NpModel StrainModel KpModel KpProps LinAlg DetBalModel DetBalProps CrystalModel CrystalProps BulkKpModel.
From Coq Require Import List.
Import ListNotations.
Open Scope R_scope.
Open Scope list_scope.

(** * Specification *)
(** The energy of a free particle of relative mass mu. *)
Definition kinetic (k mu : R) : R := (hbar * k) ^ 2 / (2 * (mu * electron_mass)).
(** The sum of the squares of the residuals, each measured in its standard deviation. *)
Definition misfit (ks es ss : list R) (mu : R) : R :=
  fold_right Rplus 0 (map (fun p => ((kinetic (fst p) mu - fst (snd p)) / snd (snd p)) ^ 2) (combine ks (combine es ss))).
(** What is trusted of scipy's curve_fit: an answer minimises the misfit. *)
Definition least_squares (fit : list R -> list R -> option R -> list R -> res R) : Prop :=
  forall ks es p0 ss mu, fit ks es p0 ss = Ok mu ->
    mu <> 0 /\ forall mu', mu' <> 0 -> misfit ks es ss mu <= misfit ks es ss mu'.
(** The wave numbers retained: those with k below 2.15 dk times the zone radius. *)
Definition near (a0 dk k : R) : Prop := k ^ 2 < ln 100 * (dk * (2 * PI / a0)) ^ 2.

(** * Lemmas *)
Lemma ok_inj_ {A} (x y : A) : Ok x = Ok y -> x = y.
Proof. intro H. apply (f_equal (fun r => match r with Ok v => v | Err _ => x end)) in H. exact H. Qed.
(** The curve of the fit is the kinetic energy of the mass. *)
Theorem C181_curve k mu : parabolic k mu = kinetic k mu.
Proof.
  unfold parabolic, kinetic. replace (2 * electron_mass * mu) with (2 * (mu * electron_mass)) by ring.
  unfold Rdiv. ring.
Qed.
Example C181_curve_ex : parabolic 2 1 = 4 * parabolic 1 1.
Proof. rewrite !C181_curve. unfold kinetic, Rdiv. ring. Qed.
Lemma em_pos : 0 < electron_mass. Proof. apply electron_mass_pos. Qed.
Definition cc : R := hbar ^ 2 / (2 * electron_mass).
Lemma cc_pos : 0 < cc.
Proof. unfold cc. pose proof em_pos. pose proof hbar_pos. apply Rdiv_lt_0_compat; [apply pow_lt; assumption|lra]. Qed.
Lemma kinetic_cc k mu : mu <> 0 -> kinetic k mu = cc * k ^ 2 * / mu.
Proof. intro H. unfold kinetic, cc. pose proof em_pos. field. split; lra. Qed.
Lemma kinetic_inj k mu nu : k <> 0 -> mu <> 0 -> nu <> 0 -> kinetic k mu = kinetic k nu -> mu = nu.
Proof.
  intros Hk Hm Hn H. rewrite !kinetic_cc in H by assumption. pose proof cc_pos.
  apply Rmult_eq_reg_l in H; [|apply Rmult_integral_contrapositive; split; [lra|apply pow_nonzero; exact Hk]].
  rewrite <- (Rinv_inv mu), <- (Rinv_inv nu), H. reflexivity.
Qed.
Lemma kinetic_0 mu : kinetic 0 mu = 0.
Proof. unfold kinetic, Rdiv. ring. Qed.

Lemma near_weigth a0 dk k : 0 < a0 -> 0 < dk -> (near a0 dk k <-> 1 / 100 < weigth a0 dk k).
Proof.
  intros Ha Hd. unfold near, weigth.
  assert (Hs : 0 < (dk * (2 * PI / a0)) ^ 2).
  { apply pow_lt. apply Rmult_lt_0_compat; [exact Hd|]. pose proof PI_RGT_0. apply Rdiv_lt_0_compat; lra. }
  set (s := (dk * (2 * PI / a0)) ^ 2) in *. clearbody s.
  assert (E : 1 / 100 = exp (- ln 100)).
  { rewrite exp_Ropp, exp_ln by lra. field. }
  rewrite E. split; intro H.
  - apply exp_increasing. apply (Rmult_lt_reg_r s); [exact Hs|]. replace (- k ^ 2 / s * s) with (- k ^ 2) by (field; lra). lra.
  - apply exp_lt_inv in H. apply (Rmult_lt_compat_r s) in H; [|exact Hs].
    replace (- k ^ 2 / s * s) with (- k ^ 2) in H by (field; lra). lra.
Qed.
Lemma kept_map a0 dk (f : R -> R) ks : kept a0 dk ks (map f ks) = map f (kept a0 dk ks ks).
Proof.
  unfold kept. induction ks as [|k r IH]; [reflexivity|]. cbn [map combine filter fst].
  destruct (Rlt_dec (1 / 100) (weigth a0 dk k)); cbn [map snd]; rewrite IH; reflexivity.
Qed.
Lemma kept_in a0 dk ks k : In k (kept a0 dk ks ks) <-> In k ks /\ 1 / 100 < weigth a0 dk k.
Proof.
  unfold kept. induction ks as [|x r IH]; [cbn; tauto|]. cbn [combine filter fst].
  destruct (Rlt_dec (1 / 100) (weigth a0 dk x)) as [L|L]; cbn [map snd In]; rewrite IH; split.
  - intros [->|H]; tauto.
  - tauto.
  - tauto.
  - intros [[->|H] H']; [contradiction|tauto].
Qed.
Lemma fold_sq_nonneg {A} (f : A -> R) l : 0 <= fold_right Rplus 0 (map (fun p => f p ^ 2) l).
Proof. induction l as [|x r IH]; cbn [map fold_right]; [lra|]. pose proof (pow2_ge_0 (f x)). lra. Qed.
Lemma fold_sq_zero {A} (f : A -> R) l : fold_right Rplus 0 (map (fun p => f p ^ 2) l) <= 0 -> forall p, In p l -> f p = 0.
Proof.
  induction l as [|x r IH]; intros H p Hp; [destruct Hp|]. cbn [map fold_right] in H. pose proof (fold_sq_nonneg f r).
  pose proof (pow2_ge_0 (f x)). destruct Hp as [->|Hp].
  - destruct (Req_dec (f p) 0) as [|N]; [assumption|]. pose proof (pow_lt (Rabs (f p)) 2 (Rabs_pos_lt _ N)).
    rewrite pow2_abs in H2. lra.
  - apply IH; [lra|exact Hp].
Qed.
Lemma misfit_map ks (e s : R -> R) mu :
  misfit ks (map e ks) (map s ks) mu = fold_right Rplus 0 (map (fun k => ((kinetic k mu - e k) / s k) ^ 2) ks).
Proof. unfold misfit. induction ks as [|k r IH]; [reflexivity|]. cbn [map combine fold_right fst snd]. rewrite IH. reflexivity. Qed.

(** A parabola is recovered whatever the deviations. *)
Lemma fit_recovers fit ks s mu p0 m : least_squares fit -> mu <> 0 -> (forall k, 0 < s k) -> (exists k, In k ks /\ k <> 0) ->
  fit ks (map (fun k => kinetic k mu) ks) p0 (map s ks) = Ok m -> m = mu.
Proof.
  intros Hf Hmu Hs (k & Hk & Hk0) H. destruct (Hf _ _ _ _ _ H) as [Hm Hmin]. specialize (Hmin mu Hmu).
  rewrite !misfit_map in Hmin.
  assert (Z : fold_right Rplus 0 (map (fun k => ((kinetic k mu - kinetic k mu) / s k) ^ 2) ks) = 0).
  { clear. induction ks as [|k r IH]; [reflexivity|]. cbn [map fold_right]. rewrite IH. unfold Rdiv. ring. }
  rewrite Z in Hmin. pose proof (fold_sq_zero _ _ Hmin k Hk) as E. cbv beta in E.
  apply (kinetic_inj k); try assumption. specialize (Hs k).
  apply (Rmult_eq_compat_r (s k)) in E. unfold Rdiv in E. rewrite Rmult_assoc, Rinv_l in E by lra. lra.
Qed.

Lemma weigth_pos a0 dk k : 0 < weigth a0 dk k. Proof. apply exp_pos. Qed.

Lemma fit_band_exact fit a0 dk ks E mu m : least_squares fit -> 0 < a0 -> 0 < dk -> mu <> 0 -> nth 0 ks 1 = 0 ->
  (exists k, In k ks /\ k <> 0 /\ near a0 dk k) ->
  fit_band fit a0 dk ks (map (fun k => E + kinetic k mu) ks) = Ok m -> m = mu.
Proof.
  intros Hf Ha Hd Hmu H0 (k & Hk & Hk0 & Hn) H. unfold fit_band in H.
  destruct (guess ks _) as [p0|]; cbn [bindR] in H; [|discriminate H].
  rewrite kept_map, map_map in H.
  replace (map (fun x => E + kinetic x mu - nth 0 (map (fun k => E + kinetic k mu) ks) 0) (kept a0 dk ks ks))
    with (map (fun k => kinetic k mu) (kept a0 dk ks ks)) in H.
  - apply (fit_recovers _ _ _ _ _ _ Hf Hmu (weigth_pos a0 dk)) in H; [exact H|]. exists k. split; [|exact Hk0].
    apply kept_in. split; [exact Hk|]. apply near_weigth; assumption.
  - apply map_ext. intro x. destruct ks as [|y r]; [destruct Hk|]. cbn [nth] in H0. subst y. cbn [map nth]. rewrite kinetic_0. ring.
Qed.

(** ** Parabolic bands *)
(** When the four bands of one spin are parabolas, the masses returned are theirs, in kilograms and
    positive, in the order conduction, heavy hole, light hole, split-off; the upper hole band is the
    heavy one unless the layer is tensile. *)
Theorem C181_parabolas : forall fit m host dk ks E mu b2 b4 b6 b8 r,
  least_squares fit -> 0 < m_a m -> 0 < dk -> (forall i, mu i <> 0) -> nth 0 ks 1 = 0 ->
  (exists k, In k ks /\ k <> 0 /\ near (m_a m) dk k) ->
  fit_effective_masses fit
    [ks; map (fun k => E 0%nat + kinetic k (mu 0%nat)) ks; b2; map (fun k => E 1%nat + kinetic k (mu 1%nat)) ks; b4;
     map (fun k => E 2%nat + kinetic k (mu 2%nat)) ks; b6; map (fun k => E 3%nat + kinetic k (mu 3%nat)) ks; b8] m host dk = Ok r ->
  exists c hh lh so, r = [c; hh; lh; so] /\ c = Rabs (mu 3%nat) * electron_mass /\ so = Rabs (mu 0%nat) * electron_mass /\
    (m_a host <= m_a m -> hh = Rabs (mu 2%nat) * electron_mass /\ lh = Rabs (mu 1%nat) * electron_mass) /\
    (m_a m < m_a host -> hh = Rabs (mu 1%nat) * electron_mass /\ lh = Rabs (mu 2%nat) * electron_mass).
Proof.
  intros fit m host dk ks E mu b2 b4 b6 b8 r Hf Ha Hd Hmu H0 Hk H.
  unfold fit_effective_masses in H. cbn [every_other fit_all] in H.
  destruct (fit_band fit (m_a m) dk ks (map (fun k => E 0%nat + kinetic k (mu 0%nat)) ks)) as [m0|] eqn:E0; cbn [bindR] in H; [|discriminate H].
  destruct (fit_band fit (m_a m) dk ks (map (fun k => E 1%nat + kinetic k (mu 1%nat)) ks)) as [m1|] eqn:E1; cbn [bindR] in H; [|discriminate H].
  destruct (fit_band fit (m_a m) dk ks (map (fun k => E 2%nat + kinetic k (mu 2%nat)) ks)) as [m2|] eqn:E2; cbn [bindR] in H; [|discriminate H].
  destruct (fit_band fit (m_a m) dk ks (map (fun k => E 3%nat + kinetic k (mu 3%nat)) ks)) as [m3|] eqn:E3; cbn [bindR] in H; [|discriminate H].
  apply fit_band_exact in E0; auto. apply fit_band_exact in E1; auto.
  apply fit_band_exact in E2; auto. apply fit_band_exact in E3; auto. subst m0 m1 m2 m3.
  destruct (Rlt_dec (m_a m) (m_a host)) as [L|L]; cbn [bindR map rev app] in H; apply ok_inj_ in H; subst r;
    do 4 eexists; (split; [reflexivity|]); repeat split; intros; try reflexivity; lra.
Qed.

(** The first guess is already the mass of a parabola sampled evenly from the centre. *)
Theorem C181_guess : forall d E mu r, d <> 0 -> mu <> 0 ->
  guess (0 :: d :: 2 * d :: r) (map (fun k => E + kinetic k mu) (0 :: d :: 2 * d :: r)) = Ok (Some mu).
Proof.
  intros d E mu r Hd Hm. unfold guess. cbn [map]. rewrite !kinetic_cc by exact Hm. unfold fdiv_.
  pose proof cc_pos. pose proof em_pos. pose proof hbar_pos.
  replace (E + cc * (2 * d) ^ 2 * / mu - 2 * (E + cc * d ^ 2 * / mu) + (E + cc * 0 ^ 2 * / mu)) with (2 * cc * d ^ 2 * / mu) by ring.
  destruct (Req_EM_T (2 * cc * d ^ 2 * / mu) 0) as [Z|Z].
  - exfalso. revert Z. apply Rmult_integral_contrapositive. split; [|apply Rinv_neq_0_compat; exact Hm].
    apply Rmult_integral_contrapositive. split; [lra|apply pow_nonzero; exact Hd].
  - cbn [option_map]. f_equal. f_equal. unfold cc. field. repeat split; lra.
Qed.

(** ** The fitted mass is a weighted mean of inverse masses *)
Lemma quadratic_min A B u : 0 < A -> u <> 0 -> (forall v, v <> 0 -> A * u ^ 2 - 2 * B * u <= A * v ^ 2 - 2 * B * v) -> A * u = B.
Proof.
  intros HA Hu H. destruct (Req_dec B 0) as [->|HB].
  - exfalso. assert (Hv : u / 2 <> 0) by lra. specialize (H _ Hv).
    assert (0 < u ^ 2) by (rewrite <- Rsqr_pow2; apply Rlt_0_sqr; exact Hu). nra.
  - assert (Hv : B / A <> 0). { apply Rmult_integral_contrapositive. split; [exact HB|apply Rinv_neq_0_compat; lra]. }
    specialize (H _ Hv).
    assert (Hs : A * (u - B / A) ^ 2 <= 0).
    { replace (A * (u - B / A) ^ 2) with ((A * u ^ 2 - 2 * B * u) - (A * (B / A) ^ 2 - 2 * B * (B / A))) by (field; lra). lra. }
    assert (u - B / A = 0).
    { destruct (Req_dec (u - B / A) 0) as [|N]; [assumption|]. exfalso.
      assert (0 < (u - B / A) ^ 2) by (rewrite <- Rsqr_pow2; apply Rlt_0_sqr; exact N). nra. }
    assert (u = B / A) by lra. subst u. field. lra.
Qed.
Definition total (f : R -> R) (ks : list R) : R := fold_right Rplus 0 (map f ks).
Lemma misfit_quadratic ks e s mu : mu <> 0 -> (forall k, 0 < s k) ->
  misfit ks (map e ks) (map s ks) mu =
    cc ^ 2 * total (fun k => k ^ 4 / s k ^ 2) ks * (/ mu) ^ 2 - 2 * (cc * total (fun k => k ^ 2 * e k / s k ^ 2) ks) * / mu + total (fun k => (e k / s k) ^ 2) ks.
Proof.
  intros Hm Hs. rewrite misfit_map. unfold total. induction ks as [|k r IH]; cbn [map fold_right]; [ring|].
  rewrite IH, kinetic_cc by exact Hm. specialize (Hs k). field. split; lra.
Qed.
(** The normal equation: weights are the inverse squares of the deviations. *)
Theorem C181_normal : forall fit ks e s p0 mu, least_squares fit -> (forall k, 0 < s k) -> (exists k, In k ks /\ k <> 0) ->
  fit ks (map e ks) p0 (map s ks) = Ok mu ->
  hbar ^ 2 / (2 * (mu * electron_mass)) * total (fun k => k ^ 4 / s k ^ 2) ks = total (fun k => k ^ 2 * e k / s k ^ 2) ks.
Proof.
  intros fit ks e s p0 mu Hf Hs (k & Hk & Hk0) H. destruct (Hf _ _ _ _ _ H) as [Hm Hmin]. pose proof cc_pos as Hc.
  assert (HT : 0 < total (fun k => k ^ 4 / s k ^ 2) ks).
  { assert (G : forall l, 0 <= total (fun k => k ^ 4 / s k ^ 2) l).
    { unfold total. induction l as [|x r IH]; cbn [map fold_right]; [lra|].
      assert (0 <= x ^ 4 / s x ^ 2). { apply Rmult_le_pos; [replace (x ^ 4) with ((x ^ 2) ^ 2) by ring; apply pow2_ge_0|].
        left. apply Rinv_0_lt_compat, pow_lt, Hs. } lra. }
    clear Hmin H. induction ks as [|x r IH]; [destruct Hk|]. change (0 < x ^ 4 / s x ^ 2 + total (fun k => k ^ 4 / s k ^ 2) r).
    pose proof (G r). destruct Hk as [->|Hk].
    - assert (0 < k ^ 4 / s k ^ 2). { apply Rdiv_lt_0_compat; [|apply pow_lt, Hs]. replace (k ^ 4) with (Rsqr (Rsqr k)) by (unfold Rsqr; ring).
        apply Rlt_0_sqr. intro Z. apply Rsqr_0_uniq in Z. contradiction. } lra.
    - specialize (IH Hk). assert (0 <= x ^ 4 / s x ^ 2). { apply Rmult_le_pos; [replace (x ^ 4) with ((x ^ 2) ^ 2) by ring; apply pow2_ge_0|].
        left. apply Rinv_0_lt_compat, pow_lt, Hs. } lra. }
  assert (Q := quadratic_min (cc ^ 2 * total (fun k => k ^ 4 / s k ^ 2) ks) (cc * total (fun k => k ^ 2 * e k / s k ^ 2) ks) (/ mu)).
  assert (HA : 0 < cc ^ 2 * total (fun k => k ^ 4 / s k ^ 2) ks) by (apply Rmult_lt_0_compat; [apply pow_lt; exact Hc|exact HT]).
  specialize (Q HA (Rinv_neq_0_compat _ Hm)).
  assert (Q' : cc ^ 2 * total (fun k => k ^ 4 / s k ^ 2) ks * / mu = cc * total (fun k => k ^ 2 * e k / s k ^ 2) ks).
  { apply Q. intros v Hv. specialize (Hmin (/ v) (Rinv_neq_0_compat _ Hv)).
    rewrite !misfit_quadratic in Hmin; auto using Rinv_neq_0_compat. rewrite Rinv_inv in Hmin. lra. }
  apply (Rmult_eq_reg_l cc); [|lra]. rewrite <- Q'. unfold cc. pose proof em_pos. field. split; lra.
Qed.

(** ** The weights are the wrong way round *)
(** The comment at line 333 promises more weight to the points near k = 0.  With a band of inverse mass
    1/mu1 at the nearer point and 1/mu2 at the farther one, the mass returned lies farther from mu1
    than that of the fit without weights. *)
Theorem C181_weights_refuted : forall fit a0 dk k1 k2 E mu1 mu2 mu nu p0,
  least_squares fit -> 0 < a0 -> 0 < dk -> 0 < k1 < k2 -> near a0 dk k2 -> mu1 <> 0 -> mu2 <> 0 -> mu1 <> mu2 ->
  let ks := [0; k1; k2] in let band := [E; E + kinetic k1 mu1; E + kinetic k2 mu2] in
  fit_band fit a0 dk ks band = Ok mu ->
  fit ks (map (fun e => e - E) band) p0 [1; 1; 1] = Ok nu ->
  Rabs (/ nu - / mu1) < Rabs (/ mu - / mu1).
Proof.
  intros fit a0 dk k1 k2 E mu1 mu2 mu nu p0 Hf Ha Hd Hk Hn H1 H2 H12 ks band Hb Hu.
  pose (e := fun k => if Req_EM_T k 0 then 0 else if Req_EM_T k k1 then kinetic k1 mu1 else kinetic k2 mu2).
  assert (e0 : e 0 = 0) by (unfold e; destruct (Req_EM_T 0 0); [reflexivity|lra]).
  assert (e1 : e k1 = kinetic k1 mu1).
  { unfold e. destruct (Req_EM_T k1 0); [lra|]. destruct (Req_EM_T k1 k1); [reflexivity|lra]. }
  assert (e2 : e k2 = kinetic k2 mu2).
  { unfold e. destruct (Req_EM_T k2 0); [lra|]. destruct (Req_EM_T k2 k1); [lra|reflexivity]. }
  assert (Eb : band = map (fun k => E + e k) ks).
  { unfold band, ks. cbn [map]. rewrite e0, e1, e2. repeat f_equal; ring. }
  assert (Hks : exists k, In k ks /\ k <> 0) by (exists k1; split; [right; left; reflexivity|lra]).
  assert (Hw1 : 1 / 100 < weigth a0 dk k1).
  { apply near_weigth; auto. unfold near in *. nra. }
  assert (Hw2 : 1 / 100 < weigth a0 dk k2) by (apply near_weigth; auto).
  assert (Hw0 : 1 / 100 < weigth a0 dk 0).
  { apply near_weigth; auto. unfold near in *. nra. }
  assert (Hkept : kept a0 dk ks ks = ks).
  { unfold kept, ks. cbn [combine filter fst].
    destruct (Rlt_dec (1 / 100) (weigth a0 dk 0)); [|contradiction].
    destruct (Rlt_dec (1 / 100) (weigth a0 dk k1)); [|contradiction].
    destruct (Rlt_dec (1 / 100) (weigth a0 dk k2)); [|contradiction]. reflexivity. }
  unfold fit_band in Hb. destruct (guess ks band) as [g|]; cbn [bindR] in Hb; [|discriminate Hb].
  rewrite Eb, kept_map, Hkept, map_map in Hb. rewrite Eb, map_map in Hu.
  assert (EM : map (fun x => E + e x - E) ks = map e ks) by (apply map_ext; intro; ring).
  assert (EM' : map (fun x => E + e x - nth 0 (map (fun k => E + e k) ks) 0) ks = map e ks).
  { apply map_ext. intro. unfold ks. cbn [map nth]. rewrite e0. ring. }
  rewrite EM' in Hb. rewrite EM in Hu. change [1; 1; 1] with (map (fun _ : R => 1) ks) in Hu.
  destruct (Hf _ _ _ _ _ Hb) as [Hmu _]. destruct (Hf _ _ _ _ _ Hu) as [Hnu _].
  apply (C181_normal _ _ _ _ _ _ Hf (weigth_pos a0 dk) Hks) in Hb.
  apply (C181_normal fit ks e (fun _ => 1) p0 nu Hf (fun _ => Rlt_0_1) Hks) in Hu.
  unfold total, ks in Hb, Hu. cbn [map fold_right] in Hb, Hu. rewrite e0, e1, e2, !kinetic_cc in Hb, Hu by assumption.
  assert (Hww : weigth a0 dk k2 < weigth a0 dk k1).
  { unfold weigth. apply exp_increasing.
    assert (Hs : 0 < (dk * (2 * PI / a0)) ^ 2).
    { apply pow_lt. apply Rmult_lt_0_compat; [exact Hd|]. pose proof PI_RGT_0. apply Rdiv_lt_0_compat; lra. }
    apply Rmult_lt_compat_r; [apply Rinv_0_lt_compat; exact Hs|]. nra. }
  pose proof (weigth_pos a0 dk k1) as P1. pose proof (weigth_pos a0 dk k2) as P2. pose proof (weigth_pos a0 dk 0) as P0.
  set (s1 := weigth a0 dk k1) in *. set (s2 := weigth a0 dk k2) in *. set (s0 := weigth a0 dk 0) in *. clearbody s0 s1 s2.
  pose proof cc_pos as Hc. pose proof em_pos as He.
  replace (hbar ^ 2 / (2 * (mu * electron_mass))) with (cc * / mu) in Hb by (unfold cc; field; split; lra).
  replace (hbar ^ 2 / (2 * (nu * electron_mass))) with (cc * / nu) in Hu by (unfold cc; field; split; lra).
  pose (A := k1 ^ 4 / s1 ^ 2). pose (B := k2 ^ 4 / s2 ^ 2). pose (A' := k1 ^ 4). pose (B' := k2 ^ 4).
  assert (HA' : 0 < A') by (apply pow_lt; lra). assert (HB' : 0 < B') by (apply pow_lt; lra).
  assert (HA : 0 < A) by (apply Rdiv_lt_0_compat; [exact HA'|apply pow_lt; exact P1]).
  assert (HB : 0 < B) by (apply Rdiv_lt_0_compat; [exact HB'|apply pow_lt; exact P2]).
  assert (F : / mu - / mu1 = B / (A + B) * (/ mu2 - / mu1)).
  { assert (G : / mu * (A + B) = A * / mu1 + B * / mu2).
    { apply (Rmult_eq_reg_l cc); [|lra]. unfold A, B.
      transitivity (cc * / mu * (0 ^ 4 / s0 ^ 2 + (k1 ^ 4 / s1 ^ 2 + (k2 ^ 4 / s2 ^ 2 + 0)))); [unfold Rdiv; ring|].
      rewrite Hb. unfold Rdiv. ring. }
    apply (Rmult_eq_reg_r (A + B)); [|lra]. replace (B / (A + B) * (/ mu2 - / mu1) * (A + B)) with (B * (/ mu2 - / mu1)) by (field; repeat split; lra).
    lra. }
  assert (F' : / nu - / mu1 = B' / (A' + B') * (/ mu2 - / mu1)).
  { assert (G : / nu * (A' + B') = A' * / mu1 + B' * / mu2).
    { apply (Rmult_eq_reg_l cc); [|lra]. unfold A', B'.
      transitivity (cc * / nu * (0 ^ 4 / 1 ^ 2 + (k1 ^ 4 / 1 ^ 2 + (k2 ^ 4 / 1 ^ 2 + 0)))); [field; lra|].
      rewrite Hu. field. split; lra. }
    apply (Rmult_eq_reg_r (A' + B')); [|lra]. replace (B' / (A' + B') * (/ mu2 - / mu1) * (A' + B')) with (B' * (/ mu2 - / mu1)) by (field; repeat split; lra).
    lra. }
  rewrite F, F', !Rabs_mult.
  assert (Hd12 : 0 < Rabs (/ mu2 - / mu1)).
  { apply Rabs_pos_lt. intro Z. apply H12. rewrite <- (Rinv_inv mu1), <- (Rinv_inv mu2). f_equal. lra. }
  apply Rmult_lt_compat_r; [exact Hd12|].
  assert (Q1 : 0 < B / (A + B)) by (apply Rdiv_lt_0_compat; lra).
  assert (Q2 : 0 < B' / (A' + B')) by (apply Rdiv_lt_0_compat; lra).
  rewrite !Rabs_pos_eq by lra.
  apply (Rmult_lt_reg_r ((A' + B') * (A + B))); [apply Rmult_lt_0_compat; lra|].
  replace (B' / (A' + B') * ((A' + B') * (A + B))) with (B' * (A + B)) by (field; lra).
  replace (B / (A + B) * ((A' + B') * (A + B))) with (B * (A' + B')) by (field; lra).
  assert (HR : B' * A < B * A').
  { unfold A, B, A', B' in *.
    replace (k2 ^ 4 * (k1 ^ 4 / s1 ^ 2)) with (k1 ^ 4 * k2 ^ 4 * / s1 ^ 2) by (unfold Rdiv; ring).
    replace (k2 ^ 4 / s2 ^ 2 * k1 ^ 4) with (k1 ^ 4 * k2 ^ 4 * / s2 ^ 2) by (unfold Rdiv; ring).
    apply Rmult_lt_compat_l; [apply Rmult_lt_0_compat; assumption|].
    apply Rinv_lt_contravar; [apply Rmult_lt_0_compat; apply pow_lt; assumption|]. nra. }
  lra.
Qed.

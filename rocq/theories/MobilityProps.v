(** Properties of the mobility model (C62). *)
From Coq Require Import Reals ZArith String List Bool Lra Lia Psatz.
From Verif Require Import Common DetBalModel MobilityModel.
Import ListNotations.
Open Scope R_scope.
Open Scope string_scope.
Open Scope list_scope.

(** * Powers *)
Lemma rpow_pos b e : 0 < b -> 0 < rpow b e.
Proof. intros H. unfold rpow. destruct (Req_EM_T b 0); [lra|apply exp_pos]. Qed.
Lemma rpow_nonneg b e : 0 <= rpow b e.
Proof. unfold rpow. destruct (Req_EM_T b 0); [lra|]. left. apply exp_pos. Qed.
Lemma rpow_mono a b e : 0 <= a -> a < b -> 0 < e -> rpow a e < rpow b e.
Proof.
  intros Ha H He. unfold rpow. destruct (Req_EM_T a 0) as [->|Na], (Req_EM_T b 0); try lra.
  - apply exp_pos.
  - unfold Rpower. apply exp_increasing. apply Rmult_lt_compat_l; [exact He|]. apply ln_increasing; lra.
Qed.
Lemma rpow_zero e : rpow 0 e = 0.
Proof. unfold rpow. destruct (Req_EM_T 0 0); lra. Qed.
Lemma rpow_one e : rpow 1 e = 1.
Proof. unfold rpow. destruct (Req_EM_T 1 0); [lra|]. unfold Rpower. rewrite ln_1, Rmult_0_r. apply exp_0. Qed.
Lemma Rpower_pos a b : 0 < Rpower a b. Proof. apply exp_pos. Qed.
Lemma Rpower_ge_1 a b : 1 <= a -> 0 <= b -> 1 <= Rpower a b.
Proof.
  intros Ha Hb. unfold Rpower. rewrite <- exp_0 at 1.
  assert (0 <= ln a) by (destruct Ha as [Ha| <-]; [rewrite <- ln_1; left; apply ln_increasing; lra|rewrite ln_1; lra]).
  assert (0 <= b * ln a) by nra. destruct H0 as [H0|H0]; [left; now apply exp_increasing|rewrite <- H0; lra].
Qed.
Lemma exp10_log10 x : 0 < x -> exp10 (log10 x) = x.
Proof.
  intros H. unfold exp10, log10, Rpower. assert (0 < ln 10) by (rewrite <- ln_1; apply ln_increasing; lra).
  replace (ln x / ln 10 * ln 10) with (ln x) by (field; lra). apply exp_ln; exact H.
Qed.

(** * The doping dependence *)

(** The largest mobility at a temperature: that of the undoped crystal. *)
Definition top (muMax t1 T : R) : R := muMax * Rpower (300 / T) t1.

Section Doping.
Context (muMin muMax Nref l t1 t2 T : R) (HT : 0 < T) (HN : 0 < Nref) (Hl : 0 < l).
Let m (N : R) : R := mobility_low_field N muMin muMax Nref l t1 t2 T.
Let D := Nref * Rpower (300 / T) t2.
Let Dpos : 0 < D. Proof. unfold D. apply Rmult_lt_0_compat; [exact HN|apply Rpower_pos]. Qed.
Let u N := rpow (N / D) l.

Lemma m_eq N : m N = muMin + (top muMax t1 T - muMin) / (1 + u N).
Proof. reflexivity. Qed.
Lemma u_nonneg N : 0 <= u N. Proof. apply rpow_nonneg. Qed.
Lemma u_mono N N' : 0 <= N -> N < N' -> u N < u N'.
Proof.
  intros H H'. unfold u. apply rpow_mono; [|apply Rmult_lt_compat_r; [now apply Rinv_0_lt_compat|exact H']|exact Hl].
  apply Rmult_le_pos; [exact H|left; now apply Rinv_0_lt_compat].
Qed.
Lemma inv_mono a b : 0 <= a -> a < b -> / (1 + b) < / (1 + a).
Proof. intros. apply Rinv_lt_contravar; nra. Qed.
Lemma inv_range a : 0 <= a -> 0 < / (1 + a) <= 1.
Proof. intros. split; [apply Rinv_0_lt_compat; lra|]. rewrite <- Rinv_1. apply Rinv_le_contravar; lra. Qed.

Lemma doping_range N : 0 <= N -> muMin <= top muMax t1 T -> muMin <= m N <= top muMax t1 T.
Proof.
  intros H H'. rewrite m_eq. pose proof (inv_range (u N) (u_nonneg N)) as [A B]. unfold Rdiv.
  set (v := / (1 + u N)) in *. clearbody v. nra.
Qed.
Lemma doping_decreases N N' : 0 <= N -> N < N' -> muMin < top muMax t1 T -> m N' < m N.
Proof.
  intros H H' H2. rewrite !m_eq. pose proof (inv_mono (u N) (u N') (u_nonneg N) (u_mono N N' H H')) as A. unfold Rdiv.
  apply Rplus_lt_compat_l, Rmult_lt_compat_l; lra.
Qed.
Lemma doping_increases N N' : 0 <= N -> N < N' -> top muMax t1 T < muMin -> m N < m N'.
Proof.
  intros H H' H2. rewrite !m_eq. pose proof (inv_mono (u N) (u N') (u_nonneg N) (u_mono N N' H H')) as A. unfold Rdiv.
  nra.
Qed.
Lemma undoped : m 0 = top muMax t1 T.
Proof. rewrite m_eq. unfold u. replace (0 / D) with 0 by (field; lra). rewrite rpow_zero. field. Qed.
Lemma half_way : m D = (muMin + top muMax t1 T) / 2.
Proof. rewrite m_eq. unfold u. replace (D / D) with 1 by (field; lra). rewrite rpow_one. field. Qed.
Lemma heavily_doped eps : 0 < eps -> exists N0, 0 <= N0 /\ forall N, N0 <= N -> Rabs (m N - muMin) < eps.
Proof.
  intros He. set (k := Rabs (top muMax t1 T - muMin)).
  assert (Hk : 0 <= k) by apply Rabs_pos.
  set (B := k / eps + 1).
  assert (Hke : 0 <= k / eps) by (apply Rmult_le_pos; [exact Hk|left; now apply Rinv_0_lt_compat]).
  assert (HB : 0 < B) by (unfold B; lra).
  set (N0 := D * Rpower B (/ l)).
  exists N0. assert (H0 : 0 < N0) by (apply Rmult_lt_0_compat; [exact Dpos|apply Rpower_pos]).
  split; [lra|]. intros N HNN.
  assert (Hu0 : u N0 = B).
  { unfold u, N0. replace (D * Rpower B (/ l) / D) with (Rpower B (/ l)) by (field; lra).
    unfold rpow. pose proof (Rpower_pos B (/ l)). destruct (Req_EM_T _ 0); [lra|].
    rewrite Rpower_mult. replace (/ l * l) with 1 by (field; lra). apply Rpower_1; exact HB. }
  assert (Hu : B <= u N).
  { destruct HNN as [H|<-]; [|lra]. rewrite <- Hu0. left. apply u_mono; lra. }
  rewrite m_eq. replace (muMin + (top muMax t1 T - muMin) / (1 + u N) - muMin) with ((top muMax t1 T - muMin) / (1 + u N)) by lra.
  unfold Rdiv. rewrite Rabs_mult. fold k. rewrite Rabs_inv, (Rabs_right (1 + u N)) by lra.
  apply Rmult_lt_reg_r with (1 + u N); [lra|]. rewrite Rmult_assoc, Rinv_l, Rmult_1_r by lra.
  assert (E : k = eps * (k / eps)) by (field; lra). unfold B in Hu. nra.
Qed.
End Doping.

(** C62, the doping dependence: for positive parameters and as long as the scaled maximum is
    not below the minimum, the mobility stays between the two, falls with doping, starts at
    the scaled maximum, is half way at the reference density and tends to the minimum. *)
Theorem C62_partial muMin muMax Nref l t1 t2 T :
  0 < T -> 0 < Nref -> 0 < l -> muMin < muMax * Rpower (300 / T) t1 ->
  let m N := mobility_low_field N muMin muMax Nref l t1 t2 T in
  (forall N, 0 <= N -> muMin <= m N <= muMax * Rpower (300 / T) t1) /\
  (forall N N', 0 <= N < N' -> m N' < m N) /\
  m 0 = muMax * Rpower (300 / T) t1 /\
  m (Nref * Rpower (300 / T) t2) = (muMin + muMax * Rpower (300 / T) t1) / 2 /\
  (forall eps, 0 < eps -> exists N0, 0 <= N0 /\ forall N, N0 <= N -> Rabs (m N - muMin) < eps).
Proof.
  intros HT HN Hl H m. change (muMax * Rpower (300 / T) t1) with (top muMax t1 T) in *. repeat split.
  - now apply doping_range; try lra.
  - now apply doping_range; try lra.
  - intros N N' [A B]. now apply doping_decreases.
  - now apply undoped.
  - now apply half_way.
  - intros eps He. now apply heavily_doped.
Qed.
(** At the reference temperature the maximum is the tabulated one. *)
Lemma Rpower_base_1 t : Rpower 1 t = 1.
Proof. unfold Rpower. rewrite ln_1, Rmult_0_r. apply exp_0. Qed.
Example C62_example : let m N := mobility_low_field N 500 9400 (6 * 10 ^ 16) 0.394 2.1 3 300 in
  m 0 = 9400 /\ m (6 * 10 ^ 16) = 4950 /\ m (10 ^ 18) < m (10 ^ 17).
Proof.
  assert (E : forall t, Rpower (300 / 300) t = 1) by (intros t; replace (300 / 300) with 1 by field; apply Rpower_base_1).
  destruct (C62_partial 500 9400 (6 * 10 ^ 16) 0.394 2.1 3 300) as (_ & A & B & C & _); rewrite ?E; try lra.
  rewrite !E in *. repeat split.
  - rewrite B. lra.
  - rewrite !Rmult_1_r in C. rewrite C. field.
  - apply A. lra.
Qed.

(** * The table *)

(** Every binary of the table has positive parameters, and its minimum is below its maximum. *)
Definition sound (d : par) : Prop :=
  0 < muMin d /\ muMin d < muMax d /\ 0 < Nref d /\ 0 < pl d /\ 0 <= pt1 d.
Lemma binaries_sound name e : In (name, e) mobility_parameters -> e_kind e = 2%Z ->
  exists n p, e_n e = Some n /\ e_p e = Some p /\ sound n /\ sound p.
Proof.
  intros H K. unfold sound.
  repeat (destruct H as [H|H];
    [injection H as <- <-; cbn [e_kind binary ternary] in K; try discriminate K;
     eexists; eexists; cbn [binary e_n e_p]; repeat split; try reflexivity; cbn [muMin muMax Nref pl pt1]; unfold p10; lra|]).
  destruct H.
Qed.

(** What a carrier of a material obeys: between minimum and scaled maximum (cm2 to m2),
    falling with doping. *)
Definition obeys (mob : R -> R) (d : par) (T : R) : Prop :=
  (forall N, 0 <= N -> muMin d / 10000 <= mob N <= muMax d * Rpower (300 / T) (pt1 d) / 10000) /\
  (forall N N', 0 <= N < N' -> mob N' < mob N).
Lemma cold_top T t : 0 < T <= 300 -> 0 <= t -> 1 <= Rpower (300 / T) t.
Proof.
  intros H Ht. apply Rpower_ge_1; [|exact Ht]. apply Rmult_le_reg_r with T; [lra|]. unfold Rdiv. rewrite Rmult_assoc, Rinv_l; lra.
Qed.
Lemma sound_obeys d T : sound d -> 0 < T <= 300 ->
  obeys (fun N => mobility_low_field (N / 10 ^ 6) (muMin d) (muMax d) (Nref d) (pl d) (pt1 d) (pt2 d) T / 10000) d T.
Proof.
  intros (A & B & C & D & E) HT. pose proof (cold_top T (pt1 d) HT E) as H1.
  assert (H : muMin d < top (muMax d) (pt1 d) T) by (unfold top; nra).
  assert (P : forall N, 0 <= N -> 0 <= N / 10 ^ 6) by (intros; lra).
  split.
  - intros N HN. pose proof (doping_range (muMin d) (muMax d) (Nref d) (pl d) (pt1 d) (pt2 d) T (N / 10 ^ 6) (P N HN) ltac:(lra)) as X.
    unfold top in X. lra.
  - intros N N' [H0 H2].
    pose proof (doping_decreases (muMin d) (muMax d) (Nref d) (pl d) (pt1 d) (pt2 d) T C D (N / 10 ^ 6) (N' / 10 ^ 6) (P N H0) ltac:(lra) H). lra.
Qed.

Lemma item_in name e : item mobility_parameters name = Ok e -> In (name, e) mobility_parameters.
Proof.
  unfold item. destruct find as [[k v]|] eqn:F; [|discriminate]. intros H. injection H as <-.
  apply find_some in F as [I E]. apply String.eqb_eq in E. cbn in E. now subst.
Qed.
Lemma table_nodup name e : In (name, e) mobility_parameters -> item mobility_parameters name = Ok e.
Proof.
  intros H. repeat (destruct H as [H|H]; [injection H as <- <-; reflexivity|]). destruct H.
Qed.

(** C62 for the six binaries of the table, both carriers, every doping and every temperature
    up to room temperature; [x] and [y] play no part. *)
Theorem C62_binaries name e holes x y T : In (name, e) mobility_parameters -> e_kind e = 2%Z -> 0 < T <= 300 ->
  exists d mob, pars mobility_parameters holes name = Ok d /\ sound d /\ obeys mob d T /\
    forall N, calculate_mobility mobility_parameters name holes N x y T = Ok (mob N).
Proof.
  intros H K HT. destruct (binaries_sound name e H K) as (n & p & En & Ep & Sn & Sp).
  exists (if holes then p else n).
  exists (fun N => let d := if holes then p else n in
    mobility_low_field (N / 10 ^ 6) (muMin d) (muMax d) (Nref d) (pl d) (pt1 d) (pt2 d) T / 10000).
  assert (S : sound (if holes then p else n)) by (destruct holes; assumption).
  assert (P : pars mobility_parameters holes name = Ok (if holes then p else n)).
  { unfold pars. rewrite (table_nodup _ _ H). cbn [bindR]. rewrite En, Ep. destruct holes; reflexivity. }
  repeat split; try exact P; try apply S; try apply (sound_obeys _ T S HT); try assumption.
  intros N. unfold calculate_mobility, parameters_of. rewrite (table_nodup _ _ H), K. cbn [Z.eqb Pos.eqb].
  rewrite En, Ep. destruct holes; reflexivity.
Qed.
Example C62_binaries_example : exists d mob, pars mobility_parameters true "InP" = Ok d /\ sound d /\ obeys mob d 77 /\
  forall N, calculate_mobility mobility_parameters "InP" true N 0 0 77 = Ok (mob N).
Proof. eapply C62_binaries; [do 4 right; left; reflexivity|reflexivity|lra]. Qed.

(** C62 fails when hot: the scaled maximum falls below the minimum, which is not scaled, and
    the mobility of the electrons in GaAs rises with doping. *)
Theorem C62_refuted : exists T N N' m m', 0 < T /\ 0 <= N < N' /\
  calculate_mobility mobility_parameters "GaAs" false N 0 0 T = Ok m /\
  calculate_mobility mobility_parameters "GaAs" false N' 0 0 T = Ok m' /\ m < m' /\ m < 500 / 10000.
Proof.
  exists 3000, (10 ^ 22), (10 ^ 23). eexists. eexists. split; [lra|]. split; [lra|].
  split; [reflexivity|]. split; [reflexivity|].
  cbn [muMin muMax Nref pl pt1 pt2].
  assert (H : top 9400 2.1 3000 < 500).
  { unfold top. replace (300 / 3000) with (/ 10) by field.
    assert (L : 0 < ln 10) by (rewrite <- ln_1; apply ln_increasing; lra).
    assert (X : Rpower (/ 10) 2.1 < / 100).
    { unfold Rpower. rewrite ln_Rinv by lra. replace (/ 100) with (exp (2 * - ln 10)).
      - apply exp_increasing. nra.
      - replace (2 * - ln 10) with (- (ln 10 + ln 10)) by ring. rewrite <- ln_mult by lra. rewrite exp_Ropp, exp_ln by lra.
        replace (10 * 10) with 100 by ring. reflexivity. }
    lra. }
  assert (D : 0 < p10 6 16) by (unfold p10; lra).
  pose proof (doping_increases 500 9400 (p10 6 16) 0.394 2.1 3 3000 D ltac:(lra) (10 ^ 22 / 10 ^ 6) (10 ^ 23 / 10 ^ 6) ltac:(lra) ltac:(lra) H) as A.
  split; [lra|].
  assert (B : mobility_low_field (10 ^ 22 / 10 ^ 6) 500 9400 (p10 6 16) 0.394 2.1 3 3000 < 500).
  { rewrite m_eq. pose proof (inv_range _ (rpow_nonneg (10 ^ 22 / 10 ^ 6 / (p10 6 16 * Rpower (300 / 3000) 3)) 0.394)) as [I _].
    unfold Rdiv at 1. set (v := / (1 + _)) in *. clearbody v. nra. }
  lra.
Qed.

(** * Interpolation *)

(** The quadratic interpolation is the polynomial through the three points: it reproduces
    every polynomial of degree two and hence the three values. *)
Theorem C62_quad x1 : x1 <> 0 -> x1 <> 1 ->
  (forall a b c x, let f t := a * t ^ 2 + b * t + c in interpolate_parameter_quad x (f 1) (f x1) (f 0) x1 = f x) /\
  (forall y0 y1 y2, interpolate_parameter_quad 1 y0 y1 y2 x1 = y0 /\
     interpolate_parameter_quad x1 y0 y1 y2 x1 = y1 /\ interpolate_parameter_quad 0 y0 y1 y2 x1 = y2).
Proof.
  intros A B. split.
  - intros a b c x f. unfold interpolate_parameter_quad, f. field. lra.
  - intros. unfold interpolate_parameter_quad. repeat split; field; lra.
Qed.
(** The linear one returns the binaries at the ends; without bowing it stays between them. *)
Theorem C62_linear AC BC ABC :
  interpolate_parameter_linear 1 AC BC ABC = AC /\ interpolate_parameter_linear 0 AC BC ABC = BC /\
  forall x, 0 <= x <= 1 -> Rmin AC BC <= interpolate_parameter_linear x AC BC 0 <= Rmax AC BC.
Proof.
  unfold interpolate_parameter_linear. repeat split; try ring.
  - unfold Rmin. destruct (Rle_dec AC BC); nra.
  - unfold Rmax. destruct (Rle_dec AC BC); nra.
Qed.
(** The dielectric constants: exact at the ends, and between them in the Clausius-Mossotti
    sense for constants above 1. *)
Theorem C62_epsilon AC BC : 1 < AC -> 1 < BC ->
  interpolate_epsilon 1 AC BC = AC /\ interpolate_epsilon 0 AC BC = BC /\
  forall x, 0 <= x <= 1 -> Rmin AC BC <= interpolate_epsilon x AC BC <= Rmax AC BC.
Proof.
  intros A B. unfold interpolate_epsilon, interpolate_parameter_linear. repeat split.
  - field. split; [lra|]. lra.
  - field. lra.
  - assert (H0 : 0 < AC + 2) by lra. assert (H1 : 0 < BC + 2) by lra.
    assert (EA : (AC - 1) / (AC + 2) = 1 - 3 / (AC + 2)) by (field; lra).
    assert (EB : (BC - 1) / (BC + 2) = 1 - 3 / (BC + 2)) by (field; lra).
    rewrite EA, EB. set (a := / (AC + 2)). set (b := / (BC + 2)).
    assert (Ha : 0 < a) by (now apply Rinv_0_lt_compat). assert (Hb : 0 < b) by (now apply Rinv_0_lt_compat).
    unfold Rdiv. fold a b.
    set (s := x * a + (1 - x) * b). assert (Hs : 0 < s) by (unfold s; nra).
    replace (x * (1 - 3 * a) + (1 - x) * (1 - 3 * b) - 0 * x * (1 - x)) with (1 - 3 * s) by (unfold s; ring).
    replace ((2 * (1 - 3 * s) + 1) * / (1 - (1 - 3 * s))) with (/ s - 2) by (field; lra).
    assert (Hmax : s <= Rmax a b) by (unfold s, Rmax; destruct (Rle_dec a b); nra).
    assert (X : / Rmax a b <= / s) by (apply Rinv_le_contravar; lra).
    apply Rle_trans with (/ Rmax a b - 2); [|lra].
    unfold Rmax. destruct (Rle_dec a b) as [L|L]; unfold b, a; rewrite Rinv_inv.
    + unfold Rmin. destruct (Rle_dec AC BC); lra.
    + unfold Rmin. destruct (Rle_dec AC BC); lra.
  - assert (H0 : 0 < AC + 2) by lra. assert (H1 : 0 < BC + 2) by lra.
    assert (EA : (AC - 1) / (AC + 2) = 1 - 3 / (AC + 2)) by (field; lra).
    assert (EB : (BC - 1) / (BC + 2) = 1 - 3 / (BC + 2)) by (field; lra).
    rewrite EA, EB. set (a := / (AC + 2)). set (b := / (BC + 2)).
    assert (Ha : 0 < a) by (now apply Rinv_0_lt_compat). assert (Hb : 0 < b) by (now apply Rinv_0_lt_compat).
    unfold Rdiv. fold a b.
    set (s := x * a + (1 - x) * b). assert (Hs : 0 < s) by (unfold s; nra).
    replace (x * (1 - 3 * a) + (1 - x) * (1 - 3 * b) - 0 * x * (1 - x)) with (1 - 3 * s) by (unfold s; ring).
    replace ((2 * (1 - 3 * s) + 1) * / (1 - (1 - 3 * s))) with (/ s - 2) by (field; lra).
    assert (Hmin : Rmin a b <= s) by (unfold s, Rmin; destruct (Rle_dec a b); nra).
    assert (0 < Rmin a b) by (unfold Rmin; destruct (Rle_dec a b); lra).
    assert (X : / s <= / Rmin a b) by (apply Rinv_le_contravar; lra).
    apply Rle_trans with (/ Rmin a b - 2); [lra|].
    unfold Rmin. destruct (Rle_dec a b) as [L|L]; unfold b, a; rewrite Rinv_inv.
    + unfold Rmax. destruct (Rle_dec AC BC); lra.
    + unfold Rmax. destruct (Rle_dec AC BC); lra.
Qed.
Example C62_epsilon_example : interpolate_epsilon (1 / 2) 4 4 = 4.
Proof. unfold interpolate_epsilon, interpolate_parameter_linear. field. Qed.

(** The fraction of electrons in the direct valley is a proper fraction, it grows when the
    other valleys are raised, and the indirect mass lies between those of the two valleys. *)
Theorem C62_fraction G X L mG mX mL T : 0 < T ->
  0 < Rd G X L mG mX mL T < 1 /\
  (forall X' L', X <= X' -> L <= L' -> Rd G X L mG mX mL T <= Rd G X' L' mG mX mL T) /\
  Rmin mX mL <= mind X L mX mL T <= Rmax mX mL.
Proof.
  intros HT. assert (HK : 0 < kb_eV * T) by (unfold kb_eV; lra). split; [|split].
  - unfold Rd. set (a := Rpower _ _ * exp _). set (b := Rpower (mL / mG) _ * exp _).
    assert (0 < a) by (apply Rmult_lt_0_compat; apply exp_pos). assert (0 < b) by (apply Rmult_lt_0_compat; apply exp_pos).
    clearbody a b. split.
    + apply Rmult_lt_0_compat; [lra|apply Rinv_0_lt_compat; lra].
    + unfold Rdiv. rewrite Rmult_1_l, <- Rinv_1. apply Rinv_lt_contravar; lra.
  - intros X' L' HX HL. unfold Rd.
    assert (M : forall E E', E <= E' -> exp ((G - E') / (kb_eV * T)) <= exp ((G - E) / (kb_eV * T))).
    { intros E E' HE. assert (Hle : (G - E') / (kb_eV * T) <= (G - E) / (kb_eV * T)).
      { apply Rmult_le_compat_r; [left; now apply Rinv_0_lt_compat|lra]. }
      destruct Hle as [Hl|Hl]; [left; now apply exp_increasing|rewrite Hl; lra]. }
    pose proof (M X X' HX) as M1. pose proof (M L L' HL) as M2.
    pose proof (exp_pos ((G - X') / (kb_eV * T))) as P1. pose proof (exp_pos ((G - L') / (kb_eV * T))) as P2.
    pose proof (exp_pos ((G - X) / (kb_eV * T))) as P3. pose proof (exp_pos ((G - L) / (kb_eV * T))) as P4.
    pose proof (Rpower_pos (mX / mG) (3 / 2)) as Q1. pose proof (Rpower_pos (mL / mG) (3 / 2)) as Q2.
    set (r1 := Rpower (mX / mG) (3 / 2)) in *. set (r2 := Rpower (mL / mG) (3 / 2)) in *.
    set (e1 := exp ((G - X') / (kb_eV * T))) in *. set (e2 := exp ((G - L') / (kb_eV * T))) in *.
    set (e3 := exp ((G - X) / (kb_eV * T))) in *. set (e4 := exp ((G - L) / (kb_eV * T))) in *.
    clearbody r1 r2 e1 e2 e3 e4. clear M HX HL. unfold Rdiv. rewrite !Rmult_1_l.
    apply Rinv_le_contravar; nra.
  - unfold mind. set (r := exp _). assert (0 < r) by apply exp_pos. clearbody r.
    assert (F : 0 < 1 / (1 + r) < 1).
    { split; [apply Rmult_lt_0_compat; [lra|apply Rinv_0_lt_compat; lra]|]. unfold Rdiv. rewrite Rmult_1_l, <- Rinv_1. apply Rinv_lt_contravar; lra. }
    set (f := 1 / (1 + r)) in *. clearbody f. split.
    + unfold Rmin. destruct (Rle_dec mX mL); nra.
    + unfold Rmax. destruct (Rle_dec mX mL); nra.
Qed.

(** * Alloys *)

(** Two parameter sets are the same. *)
Lemma par_ext a b : muMin a = muMin b -> muMax a = muMax b -> Nref a = Nref b -> pl a = pl b -> pt1 a = pt1 b -> pt2 a = pt2 b -> a = b.
Proof. destruct a, b; cbn; congruence. Qed.
Lemma quad_pars_ends xi p0 p1 p2 : xi <> 0 -> xi <> 1 -> 0 < Nref p0 -> 0 < Nref p1 -> 0 < Nref p2 ->
  quad_pars 1 xi p0 p1 p2 = p0 /\ quad_pars xi xi p0 p1 p2 = p1 /\ quad_pars 0 xi p0 p1 p2 = p2.
Proof.
  intros A B N0 N1 N2. destruct (C62_quad xi A B) as [_ Q].
  repeat split; apply par_ext; cbn [quad_pars muMin muMax Nref pl pt1 pt2]; try apply Q;
    rewrite (proj1 (Q _ _ _)) || rewrite (proj1 (proj2 (Q _ _ _))) || rewrite (proj2 (proj2 (Q _ _ _))); now apply exp10_log10.
Qed.

(** Tables of positive densities: the only thing the ends need. *)
Definition positive (data : table) : Prop := forall holes name d, pars data holes name = Ok d -> 0 < Nref d.

(** Inversion of a computation. *)
Lemma bindR_ok {A B} (r : res A) (k : A -> res B) b : bindR r k = Ok b -> exists a, r = Ok a /\ k a = Ok b.
Proof. destruct r; cbn; [eauto|discriminate]. Qed.
Ltac inv_bind H :=
  repeat match type of H with
  | bindR _ _ = Ok _ => let a := fresh "v" in let E := fresh "E" in
      apply bindR_ok in H as (a & E & H)
  end.

(** C62, the ends of InGaAs (both carriers) and of the holes of GaInP, for every table with
    positive densities: the binaries at compositions 1 and 0 and the measured alloy at its own. *)
Theorem C62_InGaAs_ends data holes : positive data ->
  forall xi, measured data "InGaAs" = Ok xi -> xi <> 0 -> xi <> 1 ->
  forall d0 d1 d2, pars data holes "InAs" = Ok d0 -> pars data holes "InGaAs" = Ok d1 -> pars data holes "GaAs" = Ok d2 ->
  calculate_InGaAs data 1 holes = Ok d0 /\ calculate_InGaAs data xi holes = Ok d1 /\ calculate_InGaAs data 0 holes = Ok d2.
Proof.
  intros P xi M A B d0 d1 d2 E0 E1 E2. unfold calculate_InGaAs. rewrite E0, E1, E2, M. cbn [bindR].
  destruct (quad_pars_ends xi d0 d1 d2 A B (P _ _ _ E0) (P _ _ _ E1) (P _ _ _ E2)) as (-> & -> & ->). auto.
Qed.
Theorem C62_GaInP_holes data T : positive data ->
  forall xi, measured data "GaInP" = Ok xi -> xi <> 0 -> xi <> 1 ->
  forall d0 d1 d2, pars data true "InP" = Ok d0 -> pars data true "GaInP" = Ok d1 -> pars data true "GaP" = Ok d2 ->
  calculate_InGaP data 1 true T = Ok d0 /\ calculate_InGaP data xi true T = Ok d1 /\ calculate_InGaP data 0 true T = Ok d2.
Proof.
  intros P xi M A B d0 d1 d2 E0 E1 E2. unfold calculate_InGaP. rewrite E0, E1, E2, M. cbn [bindR].
  destruct (quad_pars_ends xi d0 d1 d2 A B (P _ _ _ E0) (P _ _ _ E1) (P _ _ _ E2)) as (-> & -> & ->). auto.
Qed.
Lemma table_positive : positive mobility_parameters.
Proof.
  intros holes name d H. unfold pars in H. inv_bind H. apply item_in in E.
  repeat (destruct E as [E|E];
    [injection E as <- <-; destruct holes; cbn [binary ternary e_n e_p need] in H; try discriminate H;
     injection H as <-; cbn [Nref]; unfold p10; lra|]). destruct E.
Qed.
Example C62_InGaAs_example : calculate_InGaAs mobility_parameters 1 false = pars mobility_parameters false "InAs" /\
  calculate_InGaAs mobility_parameters 0.53 true = pars mobility_parameters true "InGaAs" /\
  calculate_InGaP mobility_parameters 0 true 300 = pars mobility_parameters true "GaP".
Proof.
  destruct (C62_InGaAs_ends mobility_parameters false table_positive 0.53 eq_refl ltac:(lra) ltac:(lra) _ _ _ eq_refl eq_refl eq_refl) as (A & _ & _).
  destruct (C62_InGaAs_ends mobility_parameters true table_positive 0.53 eq_refl ltac:(lra) ltac:(lra) _ _ _ eq_refl eq_refl eq_refl) as (_ & B & _).
  destruct (C62_GaInP_holes mobility_parameters 300 table_positive 0.49 eq_refl ltac:(lra) ltac:(lra) _ _ _ eq_refl eq_refl eq_refl) as (_ & _ & C).
  rewrite A, B, C. auto.
Qed.

(** C62, the linear alloys: the first parent at 1, the second at 0. *)
Theorem C62_general_ends data m holes e a b d0 d1 : positive data ->
  item data m = Ok e -> e_parents e = Some (a, b) -> pars data holes a = Ok d0 -> pars data holes b = Ok d1 ->
  calculate_General data m 1 holes = Ok d0 /\ calculate_General data m 0 holes = Ok d1.
Proof.
  intros P I Pa E0 E1. unfold calculate_General. rewrite I. cbn [bindR]. rewrite Pa. cbn [need bindR fst snd].
  rewrite E0, E1. cbn [bindR].
  assert (L1 : forall u v, interpolate_parameter_linear 1 u v 0 = u) by (intros; unfold interpolate_parameter_linear; ring).
  assert (L0 : forall u v, interpolate_parameter_linear 0 u v 0 = v) by (intros; unfold interpolate_parameter_linear; ring).
  split; f_equal; apply par_ext; cbn [muMin muMax Nref pl pt1 pt2]; rewrite ?L1, ?L0; try reflexivity; apply exp10_log10; eauto.
Qed.
(** The quaternary: InGaP at 1 and InGaAs at 0, for whatever those are with positive density. *)
Theorem C62_quaternary_ends data x holes T d0 d1 :
  calculate_InGaP data x holes T = Ok d0 -> calculate_InGaAs data x holes = Ok d1 -> 0 < Nref d0 -> 0 < Nref d1 ->
  calculate_InGaAsP data x 1 holes T = Ok d0 /\ calculate_InGaAsP data x 0 holes T = Ok d1.
Proof.
  intros E0 E1 N0 N1. unfold calculate_InGaAsP. rewrite E0, E1. cbn [bindR].
  assert (L1 : forall u v, interpolate_parameter_linear 1 u v 0 = u) by (intros; unfold interpolate_parameter_linear; ring).
  assert (L0 : forall u v, interpolate_parameter_linear 0 u v 0 = v) by (intros; unfold interpolate_parameter_linear; ring).
  split; f_equal; apply par_ext; cbn [muMin muMax Nref pl pt1 pt2]; rewrite ?L1, ?L0; try (destruct holes); try reflexivity;
    try (now apply exp10_log10); field.
Qed.
Lemma quad_density x xi p0 p1 p2 : 0 < Nref (quad_pars x xi p0 p1 p2).
Proof. apply Rpower_pos. Qed.
Example C62_quaternary_example : exists d, calculate_InGaP mobility_parameters 0.3 true 300 = Ok d /\
  calculate_InGaAsP mobility_parameters 0.3 1 true 300 = Ok d.
Proof.
  destruct (C62_quaternary_ends mobility_parameters 0.3 true 300 _ _ eq_refl eq_refl) as [A _]; try apply quad_density.
  eexists. split; [reflexivity|exact A].
Qed.
(** The aluminium alloys, holes: the ends are the binaries (for AlGaAs up to the temperature
    exponent of the density, which is that of GaAs throughout). *)
Theorem C62_Al_holes data T : positive data ->
  (forall xi d0 d1 d2, measured data "AlGaAs" = Ok xi -> xi <> 0 -> xi <> 1 ->
     pars data true "AlAs" = Ok d0 -> pars data true "AlGaAs" = Ok d1 -> pars data true "GaAs" = Ok d2 ->
     calculate_AlGaAs data 1 true T = Ok (Par (muMin d0) (muMax d0) (Nref d0) (pl d0) (pt1 d0) (pt2 d2)) /\
     calculate_AlGaAs data 0 true T = Ok d2) /\
  (forall xi d0 d1 d2, measured data "InAlAs" = Ok xi ->
     pars data true "InAs" = Ok d0 -> pars data true "InAlAs" = Ok d1 -> pars data true "AlAs" = Ok d2 ->
     calculate_InAlAs data 1 true T = Ok d0 /\ calculate_InAlAs data 0 true T = Ok d2).
Proof.
  intros P.
  assert (L1 : forall u v, interpolate_parameter_linear 1 u v 0 = u) by (intros; unfold interpolate_parameter_linear; ring).
  assert (L0 : forall u v, interpolate_parameter_linear 0 u v 0 = v) by (intros; unfold interpolate_parameter_linear; ring).
  split.
  - intros xi d0 d1 d2 M A B E0 E1 E2. unfold calculate_AlGaAs. rewrite E0, E1, E2, M. cbn [bindR].
    destruct (quad_pars_ends xi d0 d1 d2 A B (P _ _ _ E0) (P _ _ _ E1) (P _ _ _ E2)) as (-> & _ & ->).
    rewrite L1, L0. split; f_equal; apply par_ext; cbn [muMin muMax Nref pl pt1 pt2]; try reflexivity; field.
  - intros xi d0 d1 d2 M E0 E1 E2. unfold calculate_InAlAs. rewrite E0, E1, E2, M. cbn [bindR].
    rewrite !L1, !L0. split; f_equal; apply par_ext; cbn [muMin muMax Nref pl pt1 pt2]; try reflexivity;
      try (apply exp10_log10; eauto); field.
Qed.
Example C62_Al_example : calculate_InAlAs mobility_parameters 1 true 300 = pars mobility_parameters true "InAs" /\
  calculate_AlGaAs mobility_parameters 0 true 300 = pars mobility_parameters true "GaAs".
Proof.
  destruct (C62_Al_holes mobility_parameters 300 table_positive) as [A B].
  destruct (B 0.52 _ _ _ eq_refl eq_refl eq_refl eq_refl) as [-> _].
  destruct (A 0.3 _ _ _ eq_refl ltac:(lra) ltac:(lra) eq_refl eq_refl eq_refl) as [_ ->]. auto.
Qed.

(** InGaAs with the numbers of the table: for every composition the interpolated parameters
    are sound, so the mobility obeys its limits at every doping up to room temperature. *)
Theorem C62_InGaAs holes x y T : 0 <= x <= 1 -> 0 < T <= 300 ->
  exists d mob, calculate_InGaAs mobility_parameters x holes = Ok d /\ sound d /\ obeys mob d T /\
    forall N, calculate_mobility mobility_parameters "InGaAs" holes N x y T = Ok (mob N).
Proof.
  intros Hx HT.
  assert (S : exists d, calculate_InGaAs mobility_parameters x holes = Ok d /\ sound d).
  { destruct holes; (eexists; split; [reflexivity|]); unfold sound; cbn [muMin muMax Nref pl pt1 quad_pars]; unfold interpolate_parameter_quad;
      repeat split; try apply Rpower_pos; nra. }
  destruct S as (d & E & S). exists d.
  exists (fun N => mobility_low_field (N / 10 ^ 6) (muMin d) (muMax d) (Nref d) (pl d) (pt1 d) (pt2 d) T / 10000).
  split; [exact E|]. split; [exact S|]. split; [now apply sound_obeys|].
  intros N. unfold calculate_mobility, parameters_of. cbn [item mobility_parameters find fst snd String.eqb Ascii.eqb Bool.eqb e_kind ternary Z.eqb Pos.eqb].
  change (parameters_of mobility_parameters "InGaAs" holes x y T) with (calculate_InGaAs mobility_parameters x holes).
  rewrite E. reflexivity.
Qed.
Example C62_InGaAs_range : exists d mob, calculate_InGaAs mobility_parameters 0.2 false = Ok d /\ sound d /\ obeys mob d 300 /\
  forall N, calculate_mobility mobility_parameters "InGaAs" false N 0.2 0 300 = Ok (mob N).
Proof. apply C62_InGaAs; lra. Qed.

(** C62 fails for the electrons of GaInP: at the composition of InP the parameters are those
    of InP mixed with an indirect part of GaP, so the largest mobility is below that of InP at
    every temperature. *)
Lemma power_32 a : 1 <= a -> Rpower a (3 / 2) <= a ^ 2.
Proof.
  intros H. rewrite <- Rpower_pow by lra. apply Rle_Rpower; [exact H|]. cbn. lra.
Qed.
Theorem C62_refuted_ends T : 0 < T ->
  exists d d0, calculate_InGaP mobility_parameters 1 false T = Ok d /\ pars mobility_parameters false "InP" = Ok d0 /\
    muMax d < muMax d0.
Proof.
  intros HT. eexists. eexists. split; [reflexivity|]. split; [reflexivity|].
  cbn [muMax muMin]. unfold direct. cbn [EgG EgX EgL mnG mnX mnL new_band es einf bG bX bL].
  assert (L1 : forall u v b, interpolate_parameter_linear 1 u v b = u) by (intros; unfold interpolate_parameter_linear; ring).
  rewrite !L1. unfold polar. cbn [new_band es einf].
  rewrite (proj1 (C62_epsilon 9.61 9.08 ltac:(lra) ltac:(lra))), (proj1 (C62_epsilon 12.61 11.10 ltac:(lra) ltac:(lra))).
  destruct (C62_fraction 1.351 2.200 2.000 0.079 0.676 0.655 T HT) as (F & _ & I).
  set (f := Rd _ _ _ _ _ _ _) in *. set (md := mind _ _ _ _ _) in *. clearbody f md.
  unfold Rmin, Rmax in I. destruct (Rle_dec 0.676 0.655) as [X|_]; [exfalso; lra|].
  assert (Q : 1 <= 0.82 / md <= 1.26).
  { split; apply Rmult_le_reg_r with md; try lra; unfold Rdiv; rewrite Rmult_assoc, Rinv_l; lra. }
  pose proof (power_32 _ (proj1 Q)) as P. pose proof (Rpower_pos (0.82 / md) (3 / 2)) as P0.
  set (r := Rpower _ _) in *. assert (R2 : r <= 1.6) by nra. clearbody r.
  replace ((1 - 1) / (0.49 - 1)) with 0 by (field; lra).
  replace ((1 - 0.49) / (1 - 0.49)) with 1 by (field; lra).
  nra.
Qed.
Example C62_refuted_ends_example : exists d d0, calculate_InGaP mobility_parameters 1 false 300 = Ok d /\
  pars mobility_parameters false "InP" = Ok d0 /\ muMax d < muMax d0.
Proof. apply C62_refuted_ends. lra. Qed.

(** InAsP: the database of materials gives the fraction of arsenic
    (material_data/Vurgaftman/ternaries.txt:137-140), the mobility table expects that of
    phosphorus.  A crystal of InAs written as InAsP with As = 1 has the mobility of InP. *)
Theorem C62_refuted_InAsP T : exists m mP mA,
  material_mobility mobility_parameters "InAsP" false 0 0 1 T = Ok m /\
  material_mobility mobility_parameters "InP" false 0 0 0 T = Ok mP /\
  material_mobility mobility_parameters "InAs" false 0 0 0 T = Ok mA /\ m = mP /\ m < mA.
Proof.
  assert (E : calculate_General mobility_parameters "InAsP" 1 false = pars mobility_parameters false "InP").
  { destruct (C62_general_ends mobility_parameters "InAsP" false _ _ _ _ _ table_positive eq_refl eq_refl eq_refl eq_refl) as [-> _]. reflexivity. }
  unfold material_mobility, calculate_mobility.
  change (parameters_of mobility_parameters "InAsP" false 1 0 300) with (calculate_General mobility_parameters "InAsP" 1 false).
  rewrite E. eexists. eexists. eexists. split; [reflexivity|]. split; [reflexivity|]. split; [reflexivity|].
  split; [reflexivity|]. cbn [muMin muMax Nref pl pt1 pt2]. replace (0 / 10 ^ 6) with 0 by lra.
  rewrite !undoped by (unfold p10; lra). unfold top. replace (300 / 300) with 1 by field. rewrite !Rpower_base_1. lra.
Qed.

(** A material the table does not know has the mobility of GaAs whatever its composition;
    this includes AlInAs (the table says InAlAs), GaInAs (the table says InGaAs) and AlInP. *)
Theorem C62_unknown data name holes N x y T : (forall e, ~ In (name, e) data) ->
  calculate_mobility data name holes N x y T =
  (let! d := pars data holes "GaAs" in
   Ok (mobility_low_field (N / 10 ^ 6) (muMin d) (muMax d) (Nref d) (pl d) (pt1 d) (pt2 d) T / 10000)).
Proof.
  intros H. unfold calculate_mobility, parameters_of, item.
  destruct find as [[k v]|] eqn:F; [|reflexivity]. apply find_some in F as [I E]. apply String.eqb_eq in E. cbn in E. subst.
  exfalso. eapply H, I.
Qed.
Example C62_unknown_example : Forall (fun name => forall holes N x y T,
  calculate_mobility mobility_parameters name holes N x y T = calculate_mobility mobility_parameters "GaAs" holes N 0 0 T)
  ["AlInAs"; "GaInAs"; "AlInP"; "Ge"; "GaSb"].
Proof.
  repeat constructor; intros; (rewrite C62_unknown;
    [unfold calculate_mobility; destruct holes; reflexivity|
     intros e H; repeat (destruct H as [H|H]; [discriminate|]); destruct H]).
Qed.
(** Consequence: the two spellings of the same alloy have different mobilities. *)
Theorem C62_refuted_spelling T : exists m m', material_mobility mobility_parameters "GaInAs" false 0 0 1 T = Ok m /\
  material_mobility mobility_parameters "InGaAs" false 0 0 1 T = Ok m' /\ m < m'.
Proof.
  destruct C62_InGaAs_example as (E & _ & _).
  unfold material_mobility, calculate_mobility.
  change (parameters_of mobility_parameters "InGaAs" false 1 0 300) with (calculate_InGaAs mobility_parameters 1 false).
  rewrite E. eexists. eexists. split; [reflexivity|]. split; [reflexivity|]. cbn [muMin muMax Nref pl pt1 pt2]. replace (0 / 10 ^ 6) with 0 by lra.
  rewrite !undoped by (unfold p10; lra). unfold top. replace (300 / 300) with 1 by field. rewrite !Rpower_base_1. lra.
Qed.
(** The mobility of a material does not depend on its temperature: it is the one at 300 K
    (so its range is between the tabulated numbers, unscaled). *)
Theorem C62_no_temperature data name holes Nd Na x T T' :
  material_mobility data name holes Nd Na x T = material_mobility data name holes Nd Na x T'.
Proof. reflexivity. Qed.
(** The mass of the indirect valleys is between those of the X and L valleys, and nearer to
    that of the lower one. *)
Theorem C62_valleys X L mX mL T : 0 < T -> let m := mind X L mX mL T in
  Rmin mX mL <= m <= Rmax mX mL /\ (X < L -> mX <> mL -> Rabs (m - mX) < Rabs (m - mL)) /\ (L < X -> mX <> mL -> Rabs (m - mL) < Rabs (m - mX)).
Proof.
  intros HT m. unfold m, mind. cbv zeta. assert (Pk : 0 < kb_eV * T) by (apply Rmult_lt_0_compat; [unfold kb_eV; lra|exact HT]).
  set (r := exp ((L - X) / (kb_eV * T))). assert (Pr : 0 < r) by apply exp_pos. set (f := 1 / (1 + r)).
  assert (Ff : 0 < f < 1). { unfold f. split; [apply Rdiv_lt_0_compat; lra|]. apply Rmult_lt_reg_r with (1 + r); [lra|]. unfold Rdiv. rewrite Rmult_assoc, Rinv_l; lra. }
  assert (Ab : Rabs (mL * f + mX * (1 - f) - mX) = f * Rabs (mL - mX) /\ Rabs (mL * f + mX * (1 - f) - mL) = (1 - f) * Rabs (mL - mX)).
  { split; [replace (mL * f + mX * (1 - f) - mX) with (f * (mL - mX)) by ring|replace (mL * f + mX * (1 - f) - mL) with (- ((1 - f) * (mL - mX))) by ring; rewrite Rabs_Ropp]; rewrite Rabs_mult, (Rabs_pos_eq _) by lra; reflexivity. }
  destruct Ab as [-> ->]. split; [|split].
  - unfold Rmin, Rmax. destruct (Rle_dec mX mL); nra.
  - intros H N. assert (0 < Rabs (mL - mX)) by (apply Rabs_pos_lt; lra). assert (1 < r) by (unfold r; rewrite <- exp_0; apply exp_increasing; apply Rdiv_lt_0_compat; lra).
    assert (f < / 2) by (unfold f; apply Rmult_lt_reg_r with (1 + r); [lra|]; unfold Rdiv; rewrite Rmult_assoc, Rinv_l; lra). nra.
  - intros H N. assert (0 < Rabs (mL - mX)) by (apply Rabs_pos_lt; lra).
    assert (r < 1). { unfold r. rewrite <- exp_0. apply exp_increasing. unfold Rdiv. apply Ropp_lt_cancel. rewrite Ropp_0, Ropp_mult_distr_l. apply Rmult_lt_0_compat; [lra|now apply Rinv_0_lt_compat]. }
    assert (/ 2 < f) by (unfold f; apply Rmult_lt_reg_r with (1 + r); [lra|]; unfold Rdiv; rewrite (Rmult_assoc 1), Rinv_l; lra). nra.
Qed.
Example C62_valleys_example : let m := mind 1.9 1.7 0.85 0.56 300 in 0.56 <= m <= 0.85 /\ Rabs (m - 0.56) < Rabs (m - 0.85).
Proof.
  intros m. destruct (C62_valleys 1.9 1.7 0.85 0.56 300 ltac:(lra)) as (A & _ & B). fold m in A, B. unfold Rmin, Rmax in A. destruct (Rle_dec 0.85 0.56); [lra|]. split; [lra|apply B; lra].
Qed.
(** Alloying lowers the mobilities of the quaternary below those interpolated between the
    ternaries, except the smallest one of holes. *)
Theorem C62_quaternary_lower data x y holes T d d0 d1 : 0 <= y <= 1 -> calculate_InGaP data x holes T = Ok d0 -> calculate_InGaAs data x holes = Ok d1 -> 0 <= muMax d0 -> 0 <= muMax d1 -> 0 <= muMin d0 -> 0 <= muMin d1 ->
  calculate_InGaAsP data x y holes T = Ok d ->
  muMax d = (y * muMax d0 + (1 - y) * muMax d1) / (1 + 6 * y * (1 - y)) /\ muMax d <= y * muMax d0 + (1 - y) * muMax d1 /\
  muMin d = (y * muMin d0 + (1 - y) * muMin d1) / (if holes then 1 else 1 + 6 * y * (1 - y)).
Proof.
  intros Hy E0 E1 P0 P1 Q0 Q1 E. unfold calculate_InGaAsP in E. rewrite E0, E1 in E. cbn [bindR] in E. injection E as <-. cbn [muMax muMin]. unfold interpolate_parameter_linear.
  assert (W : 1 <= 1 + 6 * y * (1 - y)) by nra. split; [unfold Rdiv; f_equal; ring|]. split.
  - apply Rmult_le_reg_r with (1 + 6 * y * (1 - y)); [lra|]. unfold Rdiv. rewrite Rmult_assoc, Rinv_l by lra. assert (0 <= y * muMax d0 + (1 - y) * muMax d1) by nra. nra.
  - destruct holes; unfold Rdiv; [rewrite Rinv_1; ring|f_equal; ring].
Qed.

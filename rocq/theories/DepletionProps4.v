(** Property C111: the dark current of a junction in the depletion approximation. *)
From Coq Require Import Reals String List Arith Bool Lra Lia.
From Coquelicot Require Import Coquelicot.
From Coq Require Import List.
From Verif Require Import Common PhysConst DepletionModel DepletionProps DepletionProps2 DepletionProps3.
Import ListNotations.
Open Scope R_scope.
Open Scope list_scope.

(** * The diffusion current solves the diffusion equation *)

(** The excess of minority carriers in the neutral part of a region that extends from
    the depletion edge [w] to its outer surface [x]: no generation, diffusion length [L],
    excess [u0] at the depletion edge, recombination velocity [s] at the surface. *)
Definition minority_profile (u u' : R -> R) (w x L s d u0 : R) : Prop :=
  (forall t, w <= t <= x -> is_derive u t (u' t)) /\
  (forall t, w <= t <= x -> is_derive u' t (u t / L ^ 2)) /\
  u w = u0 /\ d * u' x = - s * u x.

(** The excess at the depletion edge by the law of the junction: the density of minority
    carriers is [n0 exp (q V / k T)]. *)
Definition edge_excess (n0 V T : R) : R := n0 * exp (q * V / (kb * T)) - n0.

Lemma profile_flux u u' w x L s d u0 : w <= x -> 0 < L -> 0 < d -> 0 <= s -> minority_profile u u' w x L s d u0 ->
  - u' w = u0 / L * surface_factor (L * s / d) ((x - w) / L).
Proof.
  intros Hw HL Hd Hs (Hu & Hu' & E0 & Ex). set (k := L * s / d).
  assert (Hk : 0 <= k) by (unfold k; apply div_nonneg; [nra|easy]).
  assert (Ha : 0 <= (x - w) / L) by (apply div_nonneg; lra).
  assert (G := green_identity w x 1 L 0 (fun _ => 0) u u' x (- k) Hw Rlt_0_1 HL
    (fun t _ => continuous_const 0 t) Hu).
  assert (Z : forall t, w <= t <= x -> is_derive u' t (bvp_rhs (fun _ => 0) 1 L 0 u t)).
  { intros t Ht. replace (bvp_rhs (fun _ => 0) 1 L 0 u t) with (u t / L ^ 2) by (unfold bvp_rhs; field; lra). now apply Hu'. }
  specialize (G Z). clear Z. cbv beta in G. assert (G0 : is_RInt (fun t => - (Kf x L (- k) t * (0 / 1))) w x 0).
  { assert (C0 := is_RInt_const w x 0). unfold scal in C0; cbn in C0; unfold mult in C0; cbn in C0. rewrite Rmult_0_r in C0.
    eapply is_RInt_ext; [|exact C0]. intros t _. cbn. field. }
  assert (U := is_RInt_unique _ _ _ _ G). rewrite (is_RInt_unique _ _ _ _ G0) in U. clear G G0.
  unfold Kf, Kf' in U. replace ((x - x) / L) with 0 in U by (field; lra). rewrite cosh_0', sinh_0' in U.
  replace ((w - x) / L) with (- ((x - w) / L)) in U by (field; lra). rewrite cosh_opp, sinh_opp in U.
  set (a := (x - w) / L) in *. rewrite E0 in U.
  assert (E1 : u' x = - (k / L) * u x).
  { unfold k. apply Rmult_eq_reg_l with d; [|lra]. rewrite Ex. field. lra. }
  rewrite E1 in U. unfold surface_factor. assert (D := surface_den k a Hk Ha).
  apply Rmult_eq_reg_r with (k * sinh a + cosh a); [|lra].
  replace (u0 / L * ((k * cosh a + sinh a) / (k * sinh a + cosh a)) * (k * sinh a + cosh a))
    with (u0 / L * (k * cosh a + sinh a)) by (field; lra).
  replace (- (k / L) * u x * (1 + - k * 0) - (u x - 0) * ((0 + - k * 1) / L)) with 0 in U by (field; lra).
  replace ((u0 - 0) * ((- sinh a + - k * cosh a) / L)) with (- (u0 / L * (k * cosh a + sinh a))) in U by (field; lra).
  lra.
Qed.

(** Property C111 for one region: the current density computed by get_j_dark is the
    diffusion current at the depletion edge, for every solution of the diffusion equation
    with that surface, as long as the region is thinner than 200 diffusion lengths
    (beyond, the code evaluates the hyperbolic functions at 200). *)
Theorem C111_diffusion_equation_partial x w L s d V n0 T u u' :
  w <= x -> 0 < L -> 0 < d -> 0 <= s -> 0 < T -> (x - w) / L <= 200 ->
  minority_profile u u' w x L s d (edge_excess n0 V T) -> get_j_dark x w L s d V n0 T = - q * d * u' w.
Proof.
  intros Hw HL Hd Hs HT Ha P. apply profile_flux in P; try assumption.
  replace (- q * d * u' w) with (q * d * - u' w) by ring. rewrite P. unfold get_j_dark, harg.
  destruct (Rlt_dec 200 ((x - w) / L)); [lra|]. unfold edge_excess.
  replace (q * V / kb / T) with (q * V / (kb * T)) by (pose proof kb_pos; field; lra). field.
  unfold Rdiv. repeat split; lra.
Qed.

(** A profile exists in every region, so the theorem says something at every voltage. *)
Lemma profile_exists w x L s d u0 : w <= x -> 0 < L -> 0 < d -> 0 <= s -> exists u u', minority_profile u u' w x L s d u0.
Proof.
  intros Hw HL Hd Hs. set (k := L * s / d). assert (Hk : 0 <= k) by (unfold k; apply div_nonneg; [nra|easy]).
  set (a := (x - w) / L). assert (Ha : 0 <= a) by (apply div_nonneg; lra). assert (D := surface_den k a Hk Ha).
  set (m := u0 / (k * sinh a + cosh a)).
  exists (fun t => m * Kf x L (- k) t), (fun t => m * Kf' x L (- k) t). split; [|split; [|split]].
  - intros t _. apply (is_derive_scal (Kf x L (- k)) t m). apply Kf_d. lra.
  - intros t _. replace (m * Kf x L (- k) t / L ^ 2) with (m * (Kf x L (- k) t / L ^ 2)) by (field; lra).
    apply (is_derive_scal (Kf' x L (- k)) t m). apply Kf'_d. lra.
  - unfold Kf. replace ((w - x) / L) with (- a) by (unfold a; field; lra). rewrite cosh_opp, sinh_opp. unfold m. field. lra.
  - unfold Kf, Kf'. replace ((x - x) / L) with 0 by (field; lra). rewrite sinh_0', cosh_0'. unfold k. field. lra.
Qed.
Example C111_diffusion_case V T : 0 < T -> exists u u', minority_profile u u' (1 / 2) 1 2 3 1 (edge_excess 5 V T) /\
  get_j_dark 1 (1 / 2) 2 3 1 V 5 T = - q * 1 * u' (1 / 2).
Proof.
  intros HT. destruct (profile_exists (1 / 2) 1 2 3 1 (edge_excess 5 V T)) as (u & u' & P); try lra.
  exists u, u'. split; [exact P|]. apply (C111_diffusion_equation_partial 1 (1 / 2) 2 3 1 V 5 T u u'); try lra. exact P.
Qed.

(** * The whole dark current *)

(** Shockley-Read-Hall current of a depleted region of width [w] with lifetimes [tp] and
    [tn], in the form of Sah, Noyce and Shockley: [I] is the integral of their equation. *)
Definition srh_current (j ni w V Vbi tp tn kT : R) : Prop :=
  exists I, is_RInt (fun z => 1 / (z ^ 2 + 2 * sah_b V tp tn kT 0 * z + 1)) (sah_z1 V Vbi tp tn kT) (sah_z2 V Vbi tp tn kT) I /\
    j * (Vbi - V) * sqrt (tn * tp) = 2 * kT * ni * w * sinh (q * V / (2 * kT)) * I.

(** The built-in voltage: given, or such that the densities on the two sides are in
    equilibrium. *)
Definition built_in_spec (p : dep_par) (Vbi : R) : Prop :=
  match p_Vbi p with Some v => Vbi = v | None => p_ni p ^ 2 * exp (q * Vbi / (kb * p_T p)) = p_Nd p * p_Na p end.

(** The lifetimes of the code, depletion_approximation.py:256-257. *)
Definition code_tn (p : dep_par) : R := p_ln p ^ 2 / p_dn p.
Definition code_tp (p : dep_par) : R := p_lp p ^ 2 / p_dp p.

Definition ideal_width (one : bool) (p : dep_par) (Vbi V : R) : R * R :=
  get_depletion_widths (no_widths one) (p_esn p) (p_esp p) Vbi V (p_Na p) (p_Nd p) (p_xi p).

Lemma some_eq {A} (a b : A) : Some a = Some b -> a = b.
Proof. now intros [= ->]. Qed.

(** Property C111.  At every applied voltage the dark current is found at the bias, at
    most 1 mV below the built-in voltage, as the sum of: the current recombined in the
    depleted region, whose widths are at most those of the layers; the diffusion currents
    at the two edges of the neutral regions, with the densities ni^2 / N of the minority
    carriers; and the current of the shunt.  The sign is that of the polarity. *)
Theorem C111_dark_current_partial one pol p v J : phys p -> 0 < p_Na p -> 0 < p_Nd p -> 0 < p_ni p -> 0 <= p_sn p -> 0 <= p_sp p ->
  dark_current one pol p v = Some J ->
  exists Vbi V wn wp jr,
    built_in_spec p Vbi /\ V = Rmin (pol_sign pol * v) (Vbi - 1 / 1000) /\
    wn = Rmin (fst (ideal_width one p Vbi V)) (p_xn p) /\ wp = Rmin (snd (ideal_width one p Vbi V)) (p_xp p) /\
    (let b := sah_b V (code_tp p) (code_tn p) (kb * p_T p) 0 in
       - 1120 * (kb * p_T p) / q <= V -> b <> 1 -> b < 10 ^ 7 ->
       srh_current jr (p_ni p) (wn + wp + p_xi p) V Vbi (code_tp p) (code_tn p) (kb * p_T p)) /\
    (V < - 1120 * (kb * p_T p) / q -> jr = 0) /\
    forall un un' up up',
      (p_xn p - wn) / p_lp p <= 200 -> (p_xp p - wp) / p_ln p <= 200 ->
      minority_profile un un' wn (p_xn p) (p_lp p) (p_sn p) (p_dn p) (edge_excess (p_ni p ^ 2 / p_Nd p) V (p_T p)) ->
      minority_profile up up' wp (p_xp p) (p_ln p) (p_sp p) (p_dp p) (edge_excess (p_ni p ^ 2 / p_Na p) V (p_T p)) ->
      J = pol_sign pol * (jr - q * p_dn p * un' wn - q * p_dp p * up' wp + V / shunt p).
Proof.
  intros H HA HD Hni Hsn Hsp E. destruct H as (Hln & Hlp & Hdn & Hdp & HT & HV & HR).
  assert (Hq := q_pos). assert (Hk := kb_pos). assert (HkT : 0 < kb * p_T p) by now apply Rmult_lt_0_compat.
  unfold dark_current, dark_terms in E. set (V := internal_bias pol p v) in *. set (Vbi := built_in p) in *.
  cbv zeta in E. change (get_depletion_widths _ _ _ Vbi V _ _ _) with (ideal_width one p Vbi V) in E.
  set (wn := clip_width (fst (ideal_width one p Vbi V)) (p_xn p)) in *. set (wp := clip_width (snd (ideal_width one p Vbi V)) (p_xp p)) in *.
  fold (code_tn p) (code_tp p) in E.
  destruct (get_Jsrh (p_ni p) V Vbi (code_tp p) (code_tn p) (wn + wp + p_xi p) (kb * p_T p)) as [jr|] eqn:Er; [|discriminate E].
  apply some_eq in E. subst J. exists Vbi, V, wn, wp, jr.
  assert (Hclip : forall w x, clip_width w x = Rmin w x).
  { intros w x. unfold clip_width, Rmin. destruct (Rlt_dec x w), (Rle_dec w x); lra. }
  assert (EV : V = Rmin (pol_sign pol * v) (Vbi - 1 / 1000)).
  { unfold V, internal_bias, clamp_bias, Rmin. fold Vbi. destruct (Rlt_dec _ _), (Rle_dec _ _); lra. }
  assert (HVb : 0 < Vbi - V). { rewrite EV. pose proof (Rmin_r (pol_sign pol * v) (Vbi - 1 / 1000)). lra. }
  split; [|split; [exact EV|]].
  { unfold built_in_spec, Vbi, built_in. destruct (p_Vbi p); [reflexivity|].
    assert (0 < p_Nd p * p_Na p / p_ni p ^ 2) by (apply Rdiv_lt_0_compat; [now apply Rmult_lt_0_compat|now apply pow_lt]).
    replace (q * (kb * p_T p / q * ln (p_Nd p * p_Na p / p_ni p ^ 2)) / (kb * p_T p)) with (ln (p_Nd p * p_Na p / p_ni p ^ 2)) by (field; lra).
    rewrite exp_ln by assumption. field. lra. }
  split; [apply Hclip|]. split; [apply Hclip|].
  assert (Ptn : 0 < code_tn p) by (apply Rdiv_lt_0_compat; [now apply pow_lt|assumption]).
  assert (Ptp : 0 < code_tp p) by (apply Rdiv_lt_0_compat; [now apply pow_lt|assumption]).
  split; [|split].
  - intros b HVl Hb1 Hb7. unfold get_Jsrh in Er. destruct (Rle_dec _ V) as [_|N]; [|lra].
    unfold forward in Er. destruct (C80_sah_integral_partial V Vbi (code_tp p) (code_tn p) (kb * p_T p) 0 Ptp Ptn Hb1 Hb7) as (f & Ef & If).
    rewrite Ef in Er. injection Er as <-. exists f. split; [exact If|].
    assert (0 < sqrt (code_tn p * code_tp p)) by (apply sqrt_lt_R0, Rmult_lt_0_compat; assumption).
    field. repeat split; lra.
  - intros HVl. unfold get_Jsrh in Er. destruct (Rle_dec _ V) as [N|_]; [lra|]. now injection Er as <-.
  - intros un un' up up' An Ap Pn Pp.
    assert (Wn : wn <= p_xn p) by (unfold wn; rewrite Hclip; apply Rmin_r).
    assert (Wp : wp <= p_xp p) by (unfold wp; rewrite Hclip; apply Rmin_r).
    rewrite (C111_diffusion_equation_partial _ _ _ _ _ _ _ _ un un' Wn Hlp Hdn Hsn HT An Pn).
    rewrite (C111_diffusion_equation_partial _ _ _ _ _ _ _ _ up up' Wp Hln Hdp Hsp HT Ap Pp). ring.
Qed.

(** The junction of C38 with lifetimes 4 and 1: the dark current exists at every bias
    below 1120 kT / q of reverse bias, and at zero bias. *)
Example C111_case : exists J un un' up up', dark_current false NP (sample_par 2) 0 = Some J /\
  minority_profile un un' (Rmin (fst (ideal_width false (sample_par 2) 1 0)) 1) 1 1 1 1 (edge_excess (1 ^ 2 / 1) 0 300) /\
  minority_profile up up' (Rmin (snd (ideal_width false (sample_par 2) 1 0)) 2) 2 2 1 1 (edge_excess (1 ^ 2 / 2) 0 300).
Proof.
  destruct (profile_exists (Rmin (fst (ideal_width false (sample_par 2) 1 0)) 1) 1 1 1 1 (edge_excess (1 ^ 2 / 1) 0 300)) as (un & un' & Pn); try lra.
  { apply Rmin_r. }
  destruct (profile_exists (Rmin (snd (ideal_width false (sample_par 2) 1 0)) 2) 2 2 1 1 (edge_excess (1 ^ 2 / 2) 0 300)) as (up & up' & Pp); try lra.
  { apply Rmin_r. }
  exists 0, un, un', up, up'. split; [apply C38_zero_case|]. split; assumption.
Qed.

(** * Mirror image *)

(** Property C111: an n-on-p junction with the same parameters has the curve of the
    p-on-n junction with voltage and current reversed. *)
Theorem C111_mirror one p v : dark_current one NP p v = option_map Ropp (dark_current one PN p (- v)).
Proof.
  unfold dark_current, dark_terms. replace (internal_bias NP p v) with (internal_bias PN p (- v)).
  2:{ unfold internal_bias. f_equal. unfold pol_sign. ring. }
  cbv zeta. destruct (get_Jsrh _ _ _ _ _ _ _) as [j|]; [|reflexivity]. cbn [option_map]. f_equal. unfold pol_sign. ring.
Qed.
Example C111_mirror_case : dark_current false PN (sample_par 2) 0 = Some 0 -> dark_current false NP (sample_par 2) (- 0) = Some (- 0).
Proof. intros H. rewrite C111_mirror. rewrite Ropp_involutive, H. reflexivity. Qed.

(** * Lifetimes *)

(** The part of the property that fails: the lifetimes.  identify_parameters names the
    diffusion coefficients by region, so that [p_dp] is that of the electrons (in the p
    region) and [p_dn] that of the holes, while the diffusion lengths are named by
    carrier; the solver divides the square of the electrons' length by the holes'
    coefficient. *)
Definition electron_lifetime (p : dep_par) (t : R) : Prop := p_ln p ^ 2 = p_dp p * t.
Definition hole_lifetime (p : dep_par) (t : R) : Prop := p_lp p ^ 2 = p_dn p * t.

(** With the lifetimes of the carriers this junction recombines nothing at zero bias;
    with those of the code the result is nan. *)
Theorem C111_lifetimes_refuted : exists p, phys p /\
  (forall tn tp, electron_lifetime p tn -> hole_lifetime p tp ->
     get_Jsrh (p_ni p) 0 (built_in p) tp tn 1 (kb * p_T p) = Some 0 /\ code_tn p <> tn /\ code_tp p <> tp) /\
  forall one pol, dark_current one pol p 0 = None.
Proof.
  set (p := {| p_xn := 1; p_xp := 2; p_xi := 0; p_sn := 1; p_sp := 1; p_ln := 1; p_lp := 2; p_dn := 1; p_dp := 4;
     p_Nd := 1; p_Na := 2; p_ni := 1; p_esn := 1; p_esp := 1; p_T := 300; p_Rsh := Some 1000; p_Vbi := Some 1 |}).
  exists p. assert (H : phys p) by (unfold phys, p; cbn; lra). split; [exact H|]. split.
  - intros tn tp Hn Hp. unfold electron_lifetime, hole_lifetime in *. cbn in Hn, Hp.
    assert (tn = 1 / 4) by lra. assert (tp = 4) by lra. subst. cbn [p p_ni p_T]. rewrite srh_at_0; try lra.
    + destruct (Req_EM_T 4 (1 / 4)); [lra|]. split; [reflexivity|]. unfold code_tn, code_tp. cbn. lra.
    + pose proof kb_pos. lra.
  - intros one pol. assert (B := bias_at_0 pol _ H). unfold dark_current, dark_terms. rewrite B. cbv zeta.
    rewrite srh_at_0; cbn [p p_ln p_lp p_dn p_dp p_T]; try (unfold Rdiv; lra).
    + destruct (Req_EM_T (2 ^ 2 / 4) (1 ^ 2 / 1)) as [_|N]; [reflexivity|]. elim N. field.
    + pose proof kb_pos. lra.
Qed.

(** * Forward bias *)

Lemma z_order V Vbi tp tn kT : 0 < tp -> 0 < tn -> 0 < kT -> V < Vbi -> sah_z1 V Vbi tp tn kT < sah_z2 V Vbi tp tn kT.
Proof.
  intros Hp Hn Hk HV. assert (Hq := q_pos). unfold sah_z1, sah_z2. apply Rmult_lt_compat_l.
  - apply sqrt_lt_R0. now apply Rdiv_lt_0_compat.
  - apply exp_increasing. assert (0 < q * (Vbi - V) / kT / 2).
    { apply Rdiv_lt_0_compat; [|lra]. apply Rdiv_lt_0_compat; [|assumption]. apply Rmult_lt_0_compat; lra. }
    replace (- q * (Vbi - V) / kT / 2) with (- (q * (Vbi - V) / kT / 2)) by (field; lra). lra.
Qed.

(** The current of the depleted region has the sign of the bias, whenever it is given by
    Sah's integral. *)
Theorem C111_recombination_sign j ni w V Vbi tp tn kT : 0 < tp -> 0 < tn -> 0 < kT -> 0 < ni -> 0 < w -> V < Vbi ->
  srh_current j ni w V Vbi tp tn kT -> (0 < V -> 0 < j) /\ (V < 0 -> j < 0) /\ (V = 0 -> j = 0).
Proof.
  intros Hp Hn Hk Hni Hw HV (I & HI & E). assert (Hq := q_pos).
  assert (Hz := z_order V Vbi tp tn kT Hp Hn Hk HV). assert (P1 := z1_pos V Vbi tp tn kT Hp Hn).
  assert (Pb := b_pos V tp tn kT 0).
  assert (HIpos : 0 < I).
  { assert (U := is_RInt_unique _ _ _ _ HI). rewrite <- U. apply RInt_gt_0; [assumption| |].
    - intros z Hz'. assert (D := sah_den (sah_b V tp tn kT 0) z Pb ltac:(lra)). apply Rdiv_lt_0_compat; lra.
    - intros z Hz'. apply (sah_cont (sah_b V tp tn kT 0) z Pb). lra. }
  assert (S : 0 < sqrt (tn * tp)) by (apply sqrt_lt_R0; now apply Rmult_lt_0_compat).
  assert (A : 0 < (Vbi - V) * sqrt (tn * tp)) by (apply Rmult_lt_0_compat; lra).
  assert (B : 0 < 2 * kT * ni * w * I) by (repeat apply Rmult_lt_0_compat; lra).
  assert (E' : j * ((Vbi - V) * sqrt (tn * tp)) = 2 * kT * ni * w * I * sinh (q * V / (2 * kT))) by (rewrite <- Rmult_assoc, E; ring).
  set (AA := (Vbi - V) * sqrt (tn * tp)) in *. set (BB := 2 * kT * ni * w * I) in *. clearbody AA BB. clear E HI.
  assert (F : forall v, 0 < v -> 0 < sinh (q * v / (2 * kT))).
  { intros v0 Hv. apply sinh_pos. apply Rdiv_lt_0_compat; [now apply Rmult_lt_0_compat|lra]. }
  split; [|split].
  - intros Hv. specialize (F V Hv). assert (0 < BB * sinh (q * V / (2 * kT))) by now apply Rmult_lt_0_compat. nra.
  - intros Hv. specialize (F (- V) ltac:(lra)). replace (q * - V / (2 * kT)) with (- (q * V / (2 * kT))) in F by (field; lra).
    rewrite sinh_opp in F. assert (0 < BB * - sinh (q * V / (2 * kT))) by now apply Rmult_lt_0_compat. nra.
  - intros ->. replace (q * 0 / (2 * kT)) with 0 in E' by (field; lra). rewrite sinh_0', Rmult_0_r in E'.
    apply Rmult_integral in E' as [E'|E']; lra.
Qed.
Example C111_recombination_case : exists j, srh_current j 1 1 1 2 1 1 q /\ 0 < j.
Proof.
  destruct C80_case as (f & _ & If). assert (Hq := q_pos).
  exists (2 * q * sinh (q * 1 / (2 * q)) * f / sqrt (1 * 1)).
  assert (S : srh_current (2 * q * sinh (q * 1 / (2 * q)) * f / sqrt (1 * 1)) 1 1 1 2 1 1 q).
  { exists f. split; [exact If|]. replace (1 * 1) with 1 by ring. rewrite sqrt_1. field. }
  split; [exact S|]. apply (C111_recombination_sign _ 1 1 1 2 1 1 q); try lra. exact S.
Qed.

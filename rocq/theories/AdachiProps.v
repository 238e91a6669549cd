(** C178: Adachi's model of the optical constants. *)
From Coq Require Import Reals String List Arith Bool Lra Lia.
From Coquelicot Require Import Complex.
From Verif Require Import Common PhysConst NumModel DetBalModel DetBalProps EllModel EllProps AdachiModel.
From Verif Require SchrodModel SchrodProps.
From Coq Require Import List.
Import ListNotations.
Open Scope R_scope.
Open Scope list_scope.

(** * Specification *)
(** Energies of a material in eV, not zero. *)
Definition positive (p : adachi) : Prop :=
  0 < p_e0 p /\ 0 < p_e0d p /\ 0 < p_e1 p /\ 0 < p_e1d p /\ 0 < p_e2 p.
Definition strengths (p : adachi) : Prop := 0 <= p_a p /\ 0 <= p_c p /\ 0 <= p_gamma p /\ 0 <= p_d p.
Definition above (x : R) : R := sqrt (Rmax 0 x).
(** Adachi's contributions: direct gap, E1 edge, E2 oscillator, indirect gap. *)
Definition absorptive (p : adachi) (E : R) : R :=
  p_a p * (above (E - p_e0 p) + above (E - p_e0d p) / 2) / E ^ 2
  + PI * (p_e1 p / E) ^ 2 * Rmax 0 (7 - 14 * above (p_e1 p - E))
  + (if Rle_dec (p_e1 p) E
     then p_c p * p_gamma p * (E / p_e2 p)
          / ((1 - (E / p_e2 p) ^ 2) ^ 2 + (E / p_e2 p) ^ 2 * p_gamma p ^ 2)
     else 0)
  + (if Rle_dec (p_eg p) E then if Rle_dec E (p_e1 p) then 2 * p_d p * (1 - p_eg p / E) ^ 2 else 0 else 0).
Definition direct_f (x : R) : R := (2 - sqrt (1 + x) - above (1 - x)) / x ^ 2.
Definition dispersive (p : adachi) (E : R) : R :=
  p_a p / (p_e0 p * sqrt (p_e0 p))
    * (direct_f (E / p_e0 p)
       + 1 / 2 * ((p_e0 p / p_e0d p) * sqrt (p_e0 p / p_e0d p)) * direct_f (E / p_e0d p))
  + p_c p * (1 - (E / p_e2 p) ^ 2) / ((1 - (E / p_e2 p) ^ 2) ^ 2 + (E / p_e2 p) ^ 2 * p_gamma p ^ 2).
Definition expc (z : C) : C := (exp (Re z) * cos (Im z), exp (Re z) * sin (Im z)).
Definition damped (E : R) : C := (E, 6 / 100).
(** A dielectric constant with this real part from the direct gap and the oscillator, and from the
    E1 edge the logarithm with a broadening of 0.06 eV. *)
Definition dispersion (p : adachi) (E : R) (e : C) : Prop :=
  exists l : C, expc l = (1 - (damped E / RtoC (p_e1 p)) * (damped E / RtoC (p_e1 p)))%C
    /\ - PI < Im l <= PI
    /\ e = (RtoC (dispersive p E)
            - RtoC 7 * (RtoC (p_e1 p) / damped E) * (RtoC (p_e1 p) / damped E) * l)%C.
(** n and k belong to such a dielectric constant and absorption. *)
Definition constants (p : adachi) (E n k : R) : Prop :=
  exists (e N K : C), dispersion p E e /\ (N * N - K * K)%C = e
    /\ ((RtoC 2 * N * K) * (RtoC 2 * N * K))%C = RtoC (absorptive p E ^ 2)
    /\ 0 <= Re N /\ 0 <= Re K /\ n = Re N + 1 / 10 ^ 10 /\ k = Re K + 1 / 10 ^ 10.

(** * Lemmas *)
Lemma H_div E e : 0 < e -> H (E / e - 1) = if Rle_dec e E then 1 else 0.
Proof. intro He. unfold H. assert (Q : E / e - 1 = (E - e) * / e) by (field; lra).
  assert (Hi := Rinv_0_lt_compat e He).
  destruct (Rle_dec 0 (E / e - 1)) as [L|L], (Rle_dec e E) as [M|M]; try reflexivity; exfalso; rewrite Q in L; nra. Qed.
Lemma H_div' E e : 0 < e -> H (1 - E / e) = if Rle_dec E e then 1 else 0.
Proof. intro He. unfold H. assert (Q : 1 - E / e = (e - E) * / e) by (field; lra).
  assert (Hi := Rinv_0_lt_compat e He).
  destruct (Rle_dec 0 (1 - E / e)) as [L|L], (Rle_dec E e) as [M|M]; try reflexivity; exfalso; rewrite Q in L; nra. Qed.
Lemma above_H x : sqrt x * (if Rle_dec 0 x then 1 else 0) = above x.
Proof. unfold above. destruct (Rle_dec 0 x) as [L|L].
  - rewrite Rmax_right by lra. ring.
  - rewrite Rmax_left by lra. rewrite sqrt_0. ring. Qed.
Lemma above_le a b : sqrt (a - b) * (if Rle_dec b a then 1 else 0) = above (a - b).
Proof. rewrite <- above_H. destruct (Rle_dec b a), (Rle_dec 0 (a - b)); try reflexivity; exfalso; lra. Qed.
Lemma f_xi_eq x : 0 < x -> f_xi x = direct_f x.
Proof. intro Hx. unfold f_xi, direct_f, H. rewrite above_H. field. lra. Qed.
Lemma Rmax_H y : y * H y = Rmax 0 y.
Proof. unfold H. destruct (Rle_dec 0 y); [rewrite Rmax_right by lra|rewrite Rmax_left by lra]; ring. Qed.
Lemma den_eq p E : eps_e2_den p E = (1 - (E / p_e2 p) ^ 2) ^ 2 + (E / p_e2 p) ^ 2 * p_gamma p ^ 2.
Proof. unfold eps_e2_den. ring. Qed.
Lemma eps2_eq p E : positive p -> 0 < E -> eps2 p E = absorptive p E.
Proof. intros [P0 [P1 [P2 [P3 P4]]]] HE. unfold eps2, absorptive. f_equal; [f_equal; [f_equal|]|].
  - unfold eps2_e0. rewrite !H_div, !above_le by assumption. field. lra.
  - unfold eps2_e1. cbv zeta. rewrite H_div' by assumption. rewrite Rmult_assoc, Rmax_H.
    rewrite (Rmult_assoc b11), above_le. unfold b11, b1.
    replace (2 * 7 * above (p_e1 p - E)) with (14 * above (p_e1 p - E)) by ring.
    replace (PI * / (E / p_e1 p * (E / p_e1 p))) with (PI * (p_e1 p / E) ^ 2) by (field; lra). reflexivity.
  - unfold eps2_e2. rewrite den_eq. unfold H. destruct (Rle_dec 0 (E - p_e1 p)) as [L|L], (Rle_dec (p_e1 p) E) as [M|M]; try (exfalso; lra); [|ring].
    unfold Rdiv. ring.
  - unfold eps2_indirect. cbv zeta. rewrite (H_div' E) by assumption.
    rewrite (H_div' (p_eg p)) by assumption.
    destruct (Rle_dec (p_eg p) E), (Rle_dec E (p_e1 p)); try ring. field. lra. Qed.
Lemma expc_clog z : z <> RtoC 0 -> expc (clog z) = z.
Proof. intro Hz. unfold expc, clog. cbn [Re Im fst snd]. rewrite exp_ln by (apply Cmod_gt_0; exact Hz). apply angle_polar. Qed.
Lemma damped_ne E e : 0 < E -> 0 < e ->
  (1 - (damped E / RtoC e) * (damped E / RtoC e))%C <> RtoC 0.
Proof. intros HE He Hc. apply (f_equal Im) in Hc.
  assert (Q : Im (1 - (damped E / RtoC e) * (damped E / RtoC e))%C = - (2 * E * (6 / 100)) / (e * e)).
  { unfold damped, Cdiv, Cminus, Cplus, Copp, Cmult, Cinv, RtoC, Im. cbn [fst snd]. field. lra. }
  rewrite Q in Hc. cbn [Im RtoC snd] in Hc.
  assert (0 < 2 * E * (6 / 100) / (e * e)) by (apply Rdiv_lt_0_compat; nra).
  unfold Rdiv in *. lra. Qed.
Lemma eps1_eq p E : positive p -> 0 < E -> dispersion p E (eps1 p E).
Proof. intros [P0 [P1 [P2 [P3 P4]]]] HE.
  exists (clog (1 - (damped E / RtoC (p_e1 p)) * (damped E / RtoC (p_e1 p)))%C).
  split; [apply expc_clog, damped_ne; assumption|]. split; [apply angle_range|].
  assert (D : dispersive p E = eps1_e0 p E + eps1_e2 p E).
  { unfold dispersive, eps1_e0, eps1_e2, pow15. cbv zeta. rewrite den_eq.
    rewrite !f_xi_eq by (apply Rdiv_lt_0_compat; assumption). unfold Rdiv. ring. }
  rewrite D, RtoC_plus. unfold eps1, eps1_3dcp. cbv zeta. unfold Gamma, b1, b2.
  change (E, 6 / 100)%R with (damped E).
  set (l := clog _). set (l' := clog _). clearbody l l'.
  assert (HE' : damped E <> RtoC 0) by (intro Hc; apply (f_equal fst) in Hc; cbn in Hc; lra).
  assert (He' : RtoC (p_e1 p) <> RtoC 0) by (intro Hc; apply RtoC_inj in Hc; lra).
  assert (Hd' : RtoC (p_e1d p) <> RtoC 0) by (intro Hc; apply RtoC_inj in Hc; lra).
  generalize dependent (damped E). intros z Hz. generalize dependent (RtoC (p_e1 p)). intros e He.
  generalize dependent (RtoC (p_e1d p)). intros e' He''.
  field. repeat split; assumption. Qed.
Lemma csqrt_re z : 0 <= Re (csqrt z).
Proof. unfold SchrodModel.np_csqrt. cbn [Re fst]. apply sqrt_pos. Qed.
Lemma half_sq p E : (half_root p E * half_root p E)%C = (eps1 p E * eps1 p E + RtoC (eps2 p E) * RtoC (eps2 p E))%C.
Proof. apply SchrodProps.np_csqrt_sq. Qed.
Lemma two_ne : RtoC 2 <> RtoC 0.
Proof. intro Hc. apply RtoC_inj in Hc. lra. Qed.
Lemma half_diff (a e : C) : ((a + e) / RtoC 2 - (a - e) / RtoC 2)%C = e.
Proof. assert (T : RtoC 2 = (1 + 1)%C) by (unfold Cplus, RtoC; cbn [fst snd]; f_equal; ring).
  assert (T2 := two_ne). rewrite T in *. field. exact T2. Qed.
Lemma shown_eq x : 0 <= x -> shown x = x + 1 / 10 ^ 10.
Proof. intro Hx. unfold shown, tiny. assert (0 < 1 / 10 ^ 10) by lra. rewrite Rabs_pos_eq; lra. Qed.
Lemma point p E : positive p -> 0 < E -> constants p E (shown (n_of p E)) (shown (k_of p E)).
Proof. intros Hp HE. exists (eps1 p E), (csqrt ((half_root p E + eps1 p E) / RtoC 2)%C), (csqrt ((half_root p E - eps1 p E) / RtoC 2)%C).
  split; [apply eps1_eq; assumption|].
  assert (HN := SchrodProps.np_csqrt_sq ((half_root p E + eps1 p E) / RtoC 2)%C).
  assert (HK := SchrodProps.np_csqrt_sq ((half_root p E - eps1 p E) / RtoC 2)%C).
  assert (HS := half_sq p E). rewrite (eps2_eq p E Hp HE) in HS.
  assert (RN := csqrt_re ((half_root p E + eps1 p E) / RtoC 2)%C).
  assert (RK := csqrt_re ((half_root p E - eps1 p E) / RtoC 2)%C).
  unfold n_of, k_of. rewrite !shown_eq by assumption.
  set (N := csqrt ((half_root p E + eps1 p E) / RtoC 2)%C) in *.
  set (K := csqrt ((half_root p E - eps1 p E) / RtoC 2)%C) in *.
  set (S := half_root p E) in *. set (e := eps1 p E) in *. clearbody N K S e.
  assert (T := two_ne). split; [|split; [|repeat split; assumption]].
  - rewrite HN, HK. apply half_diff.
  - replace ((RtoC 2 * N * K) * (RtoC 2 * N * K))%C with (RtoC 2 * RtoC 2 * (N * N) * (K * K))%C by ring.
    rewrite HN, HK. replace (RtoC 2 * RtoC 2 * ((S + e) / RtoC 2) * ((S - e) / RtoC 2))%C with (S * S - e * e)%C by (field; exact T).
    rewrite HS. cbn [pow]. rewrite Rmult_1_r, RtoC_mult. ring. Qed.

(** * C178 *)
(** Every point belongs to Adachi's dielectric constant at its own wavelength or energy; n, k and
    alpha are at least 1e-10, and alpha is the absorption coefficient of k. *)
Definition right_at (p : adachi) (E n k alpha : R) : Prop :=
  constants p E n k /\ 1 / 10 ^ 10 <= n /\ 1 / 10 ^ 10 <= k /\ 1 / 10 ^ 10 <= alpha
  /\ alpha - 1 / 10 ^ 10 = 2 * (E * (16 / 10 ^ 20)) / (hbar * c) * (k - 1 / 10 ^ 10).
Lemma k_pos p E : 0 <= k_of p E.
Proof. apply csqrt_re. Qed.
Lemma n_pos p E : 0 <= n_of p E.
Proof. apply csqrt_re. Qed.
Lemma alpha_pos p E : 0 < E -> 0 <= alpha_of p E.
Proof. intro HE. unfold alpha_of, charge. assert (Hk := k_pos p E). assert (Hh := hbar_pos). assert (Hc := c_pos).
  apply Rmult_le_pos; [|exact Hk]. left. apply Rdiv_lt_0_compat; [|exact Hc]. apply Rmult_lt_0_compat; [lra|].
  apply Rdiv_lt_0_compat; [|exact Hh]. apply Rmult_lt_0_compat; [exact HE|lra]. Qed.
Lemma all_right p E : positive p -> 0 < E -> right_at p E (shown (n_of p E)) (shown (k_of p E)) (shown (alpha_of p E)).
Proof. intros Hp HE. split; [apply point; assumption|].
  assert (Hk := k_pos p E). assert (Hn := n_pos p E). assert (Ha := alpha_pos p E HE).
  rewrite !shown_eq by assumption. assert (Hh := hbar_pos). assert (Hc := c_pos). repeat split; try lra.
  unfold alpha_of, charge. field. lra. Qed.
Theorem C178_energies p start stop num i : positive p -> (forall x, In x (linspace start stop num) -> 0 < x) ->
  (i < num)%nat ->
  let r := adachi_spectra p start stop num None in
  nth i (r_E r) 0 = nth i (linspace start stop num) 0 * (16 / 10 ^ 20)
  /\ right_at p (nth i (linspace start stop num) 0) (nth i (r_n r) 0) (nth i (r_k r) 0) (nth i (r_alpha r) 0).
Proof. intros Hp Hx Hi r. unfold r, adachi_spectra. cbv zeta. cbn [r_E r_n r_k r_alpha].
  assert (Hl : (i < length (linspace start stop num))%nat) by (rewrite linspace_length; exact Hi).
  assert (M : forall f, nth i (map f (linspace start stop num)) 0 = f (nth i (linspace start stop num) 0)).
  { intro f. rewrite (nth_indep _ 0 (f 0)) by (rewrite map_length; exact Hl). apply map_nth. }
  rewrite !map_map. rewrite !M. split; [reflexivity|]. apply all_right; [exact Hp|]. apply Hx, nth_In, Hl. Qed.
Theorem C178_wavelengths_partial p start stop num wl i : positive p -> (forall x, In x wl -> 0 < x) ->
  (i < length wl)%nat ->
  let r := adachi_spectra p start stop num (Some wl) in
  right_at p (1240 / 10 ^ 9 / nth i wl 0) (nth i (r_n r) 0) (nth i (r_k r) 0) (nth i (r_alpha r) 0)
  /\ nth i (r_E r) 0 = 1240 / 10 ^ 9 / nth (length wl - 1 - i) wl 0 * (16 / 10 ^ 20).
Proof. intros Hp Hx Hi r. unfold r, adachi_spectra. cbv zeta. cbn [r_E r_n r_k r_alpha].
  assert (M : forall f (l : list R) j, (j < length l)%nat -> nth j (map f l) 0 = f (nth j l 0)).
  { intros f l j Hj. rewrite (nth_indep _ 0 (f 0)) by (rewrite map_length; exact Hj). apply map_nth. }
  rewrite <- !map_rev, !rev_involutive, !map_map.
  rewrite !(M _ wl i Hi). rewrite (M _ (rev wl) i) by (rewrite rev_length; exact Hi). split.
  - apply all_right; [exact Hp|]. apply Rdiv_lt_0_compat; [lra|]. apply Hx, nth_In, Hi.
  - rewrite rev_nth by exact Hi. replace (length wl - S i)%nat with (length wl - 1 - i)%nat by lia. reflexivity. Qed.
(** There is nothing to absorb below both gaps and a quarter of an eV below E1; k and alpha are
    then 1e-10, where the real part of the dielectric constant is positive. *)
Lemma Cint (a b : C) : (a * b)%C = RtoC 0 -> a = RtoC 0 \/ b = RtoC 0.
Proof. intro Hab. apply (f_equal Cmod) in Hab. rewrite Cmod_mult, Cmod_0 in Hab. apply Rmult_integral in Hab.
  destruct Hab as [Hab|Hab]; [left|right]; apply Cmod_eq_0; exact Hab. Qed.
Lemma csqrt_of_sq z : 0 < Re z -> csqrt (z * z)%C = z.
Proof. intro Hz. assert (Q := SchrodProps.np_csqrt_sq (z * z)%C). assert (P := csqrt_re (z * z)%C).
  set (w := csqrt (z * z)%C) in *. clearbody w.
  assert (Q' : ((w - z) * (w + z))%C = RtoC 0) by (replace ((w - z) * (w + z))%C with (w * w - z * z)%C by ring; rewrite Q; ring).
  destruct (Cint _ _ Q') as [E|E].
  - replace w with ((w - z) + z)%C by ring. rewrite E. ring.
  - exfalso. apply (f_equal Re) in E. unfold Cplus, Re, RtoC in *. cbn [fst] in *. lra. Qed.
Theorem C178_transparent p E : positive p -> 0 < E -> E <= p_e0 p -> E <= p_e0d p -> E < p_eg p ->
  E <= p_e1 p - 1 / 4 ->
  absorptive p E = 0
  /\ (0 < Re (eps1 p E) -> shown (k_of p E) = 1 / 10 ^ 10 /\ shown (alpha_of p E) = 1 / 10 ^ 10).
Proof. intros Hp HE L0 L1 L2 L3. assert (Z : absorptive p E = 0).
  { unfold absorptive. destruct (Rle_dec (p_e1 p) E); [exfalso; lra|]. destruct (Rle_dec (p_eg p) E); [exfalso; lra|].
    assert (A0 : above (E - p_e0 p) = 0) by (unfold above; rewrite Rmax_left by lra; apply sqrt_0).
    assert (A1 : above (E - p_e0d p) = 0) by (unfold above; rewrite Rmax_left by lra; apply sqrt_0).
    assert (A2 : 1 / 2 <= above (p_e1 p - E)).
    { unfold above. rewrite Rmax_right by lra. rewrite <- (sqrt_square (1 / 2)) by lra. apply sqrt_le_1_alt. lra. }
    rewrite A0, A1, (Rmax_left 0) by lra. unfold Rdiv. ring. }
  split; [exact Z|]. intro Hr.
  assert (K0 : k_of p E = 0).
  { unfold k_of, half_root. rewrite (eps2_eq p E Hp HE), Z.
    replace (eps1 p E * eps1 p E + RtoC 0 * RtoC 0)%C with (eps1 p E * eps1 p E)%C by ring.
    rewrite (csqrt_of_sq _ Hr). replace ((eps1 p E - eps1 p E) / RtoC 2)%C with (RtoC 0) by (field; exact two_ne).
    unfold SchrodModel.np_csqrt. rewrite Cmod_0. cbn [Re fst RtoC]. rewrite Rplus_0_l. unfold Rdiv. rewrite Rmult_0_l. apply sqrt_0. }
  unfold alpha_of. rewrite K0, Rmult_0_r, !shown_eq by lra. lra. Qed.
(** The absorption is not negative, and positive above the direct gap. *)
Lemma above_pos x : 0 <= above x.
Proof. apply sqrt_pos. Qed.
Theorem C178_absorbs p E : positive p -> strengths p -> 0 < E ->
  0 <= absorptive p E /\ (0 < p_a p -> p_e0 p < E -> 0 < absorptive p E).
Proof. intros [P0 [P1 [P2 [P3 P4]]]] [S1 [S2 [S3 S4]]] HE. unfold absorptive.
  assert (HE2 : 0 < E ^ 2) by (apply pow_lt; exact HE).
  assert (A0 := above_pos (E - p_e0 p)). assert (A1 := above_pos (E - p_e0d p)).
  assert (T2 : 0 <= PI * (p_e1 p / E) ^ 2 * Rmax 0 (7 - 14 * above (p_e1 p - E))).
  { apply Rmult_le_pos; [apply Rmult_le_pos; [left; exact PI_RGT_0|apply pow2_ge_0]|apply Rmax_l]. }
  assert (T3 : 0 <= (if Rle_dec (p_e1 p) E
     then p_c p * p_gamma p * (E / p_e2 p) / ((1 - (E / p_e2 p) ^ 2) ^ 2 + (E / p_e2 p) ^ 2 * p_gamma p ^ 2) else 0)).
  { destruct (Rle_dec (p_e1 p) E); [|lra].
    assert (X : 0 < E / p_e2 p) by (apply Rdiv_lt_0_compat; assumption). set (x := E / p_e2 p) in *. clearbody x.
    assert (N : 0 <= p_c p * p_gamma p * x) by (apply Rmult_le_pos; [apply Rmult_le_pos; assumption|lra]).
    assert (D : 0 <= (1 - x ^ 2) ^ 2 + x ^ 2 * p_gamma p ^ 2).
    { apply Rplus_le_le_0_compat; [apply pow2_ge_0|apply Rmult_le_pos; apply pow2_ge_0]. }
    destruct D as [D|D]; [apply Rmult_le_pos; [exact N|left; apply Rinv_0_lt_compat; exact D]|].
    rewrite <- D. unfold Rdiv. rewrite Rinv_0. lra. }
  assert (T4 : 0 <= (if Rle_dec (p_eg p) E then if Rle_dec E (p_e1 p) then 2 * p_d p * (1 - p_eg p / E) ^ 2 else 0 else 0)).
  { destruct (Rle_dec (p_eg p) E); [|lra]. destruct (Rle_dec E (p_e1 p)); [|lra].
    apply Rmult_le_pos; [lra|apply pow2_ge_0]. }
  split.
  - assert (T1 : 0 <= p_a p * (above (E - p_e0 p) + above (E - p_e0d p) / 2) / E ^ 2).
    { apply Rmult_le_pos; [apply Rmult_le_pos; [assumption|lra]|left; apply Rinv_0_lt_compat; exact HE2]. }
    lra.
  - intros Ha Hg. assert (A2 : 0 < above (E - p_e0 p)) by (unfold above; rewrite Rmax_right by lra; apply sqrt_lt_R0; lra).
    assert (T1 : 0 < p_a p * (above (E - p_e0 p) + above (E - p_e0d p) / 2) / E ^ 2).
    { apply Rdiv_lt_0_compat; [apply Rmult_lt_0_compat; [assumption|lra]|exact HE2]. }
    lra. Qed.

(** The values read from the database: each one at the temperature and fraction given. *)
Definition names : list string :=
  ["E0"; "E0plusD0"; "E1"; "E1plusD1"; "E2"; "Eg1d"; "A"; "B1"; "B11"; "Gamma"; "C"; "gamma"; "D"; "lattice_constant"]%string.
Definition ignored : list string := ["B1"; "B11"; "Gamma"; "lattice_constant"]%string.
Definition reading (p : adachi) : list (string * R) :=
  [("E0", p_e0 p); ("E0plusD0", p_e0d p); ("E1", p_e1 p); ("E1plusD1", p_e1d p); ("E2", p_e2 p); ("Eg1d", p_eg p);
   ("A", p_a p); ("C", p_c p); ("gamma", p_gamma p); ("D", p_d p)]%string.
Lemma ok_inj {A} (a b : A) : Ok a = Ok b -> a = b.
Proof. intro E. inversion E. reflexivity. Qed.
Theorem C178_parameters g m T start stop num wl r : am_fraction m <> 0 ->
  create_adachi_alpha g m T start stop num wl = Ok r ->
  (forall k, In k names -> is_ok (g (am_name m) k T [(am_element m, am_fraction m)]) = true)
  /\ exists p, r = adachi_spectra p start stop num wl
     /\ forall k v, In (k, v) (reading p) -> g (am_name m) k T [(am_element m, am_fraction m)] = Ok v.
Proof. intros Hx E. unfold create_adachi_alpha, parameters, alloy_args in E.
  destruct (Req_EM_T (am_fraction m) 0) as [Hz|_]; [contradiction|]. cbv zeta in E.
  set (a := [(am_element m, am_fraction m)]) in *.
  do 14 (match type of E with context [bindR (g ?n ?k ?t ?b) _] =>
    let X := fresh "X" in destruct (g n k t b) eqn:X; cbn [bindR] in E; [|discriminate E] end).
  apply ok_inj in E. split.
  - intros k Hk. repeat (destruct Hk as [<-|Hk]; [match goal with X : ?t = Ok _ |- is_ok ?t = true => rewrite X; reflexivity end|]). destruct Hk.
  - eexists. split; [symmetry; exact E|]. intros k v Hk.
    cbn [reading p_e0 p_e0d p_e1 p_e1d p_e2 p_eg p_a p_c p_gamma p_d] in Hk.
    repeat (destruct Hk as [Hk|Hk]; [injection Hk as <- <-; assumption|]). destruct Hk. Qed.
(** Four of the parameters do not matter as long as they are there. *)
Theorem C178_unused g g' m T start stop num wl :
  (forall k a, ~ In k ignored -> g (am_name m) k T a = g' (am_name m) k T a) ->
  (forall k a, In k ignored -> is_ok (g (am_name m) k T a) = is_ok (g' (am_name m) k T a)) ->
  is_ok (create_adachi_alpha g m T start stop num wl) = is_ok (create_adachi_alpha g' m T start stop num wl)
  /\ (forall r, create_adachi_alpha g m T start stop num wl = Ok r -> create_adachi_alpha g' m T start stop num wl = Ok r).
Proof. intros Hg Hi. unfold create_adachi_alpha, parameters. cbv zeta. set (a := alloy_args m).
  repeat match goal with |- context [g (am_name m) ?k T a] =>
    first [ rewrite (Hg k a) by (cbn; intuition discriminate); destruct (g' (am_name m) k T a); cbn [bindR is_ok]
          | let Q := fresh "Q" in assert (Q := Hi k a ltac:(cbn; tauto));
            destruct (g (am_name m) k T a), (g' (am_name m) k T a); cbn [is_ok] in Q; try discriminate Q; cbn [bindR is_ok] ];
    try (split; [reflexivity|intros ? Hr; discriminate Hr]) end.
  split; [reflexivity|]. intros ? Hr. exact Hr. Qed.

(** * Refuted *)
(** The fraction of an alloy is always passed on. False: a fraction of zero is not, and the
    alloy is then looked up like a simple material, an error for a function of the fraction. *)
Definition needs_fraction (name k : string) (T : R) (a : list (string * R)) : res R :=
  match a with [] => Err ValueError | (_, x) :: _ => Ok (1 + x) end.
Theorem C178_zero_refuted : exists m m', am_name m = am_name m' /\ am_element m = am_element m'
  /\ am_fraction m = 1 / 10 /\ am_fraction m' = 0
  /\ (forall T start stop num wl, exists r, create_adachi_alpha needs_fraction m T start stop num wl = Ok r)
  /\ (forall k T, In k names -> is_ok (needs_fraction (am_name m') k T [(am_element m', am_fraction m')]) = true)
  /\ (forall T start stop num wl, create_adachi_alpha needs_fraction m' T start stop num wl = Err ValueError).
Proof. exists (AMat "AlGaAs" "Al" (1 / 10)), (AMat "AlGaAs" "Al" 0). cbn [am_name am_element am_fraction].
  repeat split.
  - intros T start stop num wl. unfold create_adachi_alpha, parameters, alloy_args. cbn [am_fraction am_name am_element].
    destruct (Req_EM_T (1 / 10) 0) as [Z|_]; [lra|]. eexists. reflexivity.
  - intros T start stop num wl. unfold create_adachi_alpha, parameters, alloy_args. cbn [am_fraction am_name am_element].
    destruct (Req_EM_T 0 0) as [_|Z]; [reflexivity|lra]. Qed.
(** With wavelengths the energies belong to n, k and alpha one by one. False: they come in the
    opposite order. *)
Theorem C178_energy_refuted : exists wl, (forall x, In x wl -> 0 < x) /\
  forall p start stop num, exists i, (i < length wl)%nat
  /\ nth i (r_E (adachi_spectra p start stop num (Some wl))) 0 <> 1240 / 10 ^ 9 / nth i wl 0 * (16 / 10 ^ 20).
Proof. exists [1 / 10 ^ 6; 2 / 10 ^ 6]. split.
  - intros x [<-|[<-|[]]]; lra.
  - intros p start stop num. exists 0%nat. split; [cbn; lia|]. unfold adachi_spectra, charge. cbv zeta. cbn [r_E rev app map nth]. lra. Qed.

(** * Examples *)
(** Numbers like those of GaAs; 1.3 eV is below every gap. *)
Definition gaas : adachi := AP (142 / 100) (177 / 100) (29 / 10) (31 / 10) (47 / 10) (173 / 100) (343 / 100) 239 (1 / 100) 24.
Lemma gaas_positive : positive gaas.
Proof. unfold positive, gaas. cbn [p_e0 p_e0d p_e1 p_e1d p_e2]. repeat split; lra. Qed.
Example C178_transparent_ex : absorptive gaas (13 / 10) = 0.
Proof. apply (C178_transparent gaas (13 / 10) gaas_positive); cbn [gaas p_e0 p_e0d p_e1 p_eg]; lra. Qed.
Example C178_absorbs_ex : 0 < absorptive gaas (15 / 10).
Proof. apply (C178_absorbs gaas (15 / 10) gaas_positive); [|lra|..]; cbn; repeat split; cbn; lra. Qed.
Example C178_wavelengths_ex : let r := adachi_spectra gaas 0 0 0 (Some [800 / 10 ^ 9; 1000 / 10 ^ 9]) in
  constants gaas (1240 / 10 ^ 9 / (1000 / 10 ^ 9)) (nth 1 (r_n r) 0) (nth 1 (r_k r) 0).
Proof. refine (proj1 (proj1 (C178_wavelengths_partial gaas 0 0 0 [800 / 10 ^ 9; 1000 / 10 ^ 9] 1 gaas_positive _ _))).
  - intros x [<-|[<-|[]]]; lra.
  - cbn. lia. Qed.
Example C178_energies_ex : let r := adachi_spectra gaas 1 2 3 None in
  right_at gaas (nth 1 (linspace 1 2 3) 0) (nth 1 (r_n r) 0) (nth 1 (r_k r) 0) (nth 1 (r_alpha r) 0).
Proof. refine (proj2 (C178_energies gaas 1 2 3 1 gaas_positive _ _)); [|lia].
  intros x Hx. cbn in Hx. repeat (destruct Hx as [<-|Hx]; [lra|]). destruct Hx. Qed.
Example C178_parameters_ex : exists r, create_adachi_alpha needs_fraction (AMat "AlGaAs" "Al" (1 / 10)) 300 1 2 3 None = Ok r.
Proof. unfold create_adachi_alpha, parameters, alloy_args. cbn [am_fraction am_name am_element].
    destruct (Req_EM_T (1 / 10) 0) as [Z|_]; [lra|]. eexists. reflexivity. Qed.
Example C178_unused_ex : let g' := fun n k T a => if (k =? "B1")%string then Ok 99 else needs_fraction n k T a in
  forall r, create_adachi_alpha needs_fraction (AMat "AlGaAs" "Al" (1 / 10)) 300 1 2 3 None = Ok r ->
  create_adachi_alpha g' (AMat "AlGaAs" "Al" (1 / 10)) 300 1 2 3 None = Ok r.
Proof. unfold create_adachi_alpha, parameters, alloy_args. cbn [am_fraction am_name am_element].
    destruct (Req_EM_T (1 / 10) 0) as [Z|_]; [lra|]. intros r Hr. exact Hr. Qed.

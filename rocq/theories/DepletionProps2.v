(** Properties C38, C79 and C80: currents of the depletion approximation. *)
From Coq Require Import Reals String List Arith Bool Lra Lia.
From Coquelicot Require Import Coquelicot.
From Coq Require Import List.
From Verif Require Import Common PhysConst DepletionModel DepletionProps.
Import ListNotations.
Open Scope R_scope.
Open Scope list_scope.

(** * Hyperbolic functions *)
Lemma cosh_pos x : 0 < cosh x.
Proof. unfold cosh. assert (A := exp_pos x). assert (B := exp_pos (- x)). lra. Qed.
Lemma sinh_0' : sinh 0 = 0.
Proof. unfold sinh. rewrite Ropp_0. lra. Qed.
Lemma cosh_0' : cosh 0 = 1.
Proof. unfold cosh. rewrite Ropp_0, exp_0. lra. Qed.
Lemma sinh_nonneg x : 0 <= x -> 0 <= sinh x.
Proof.
  intros [H| <-]; [|rewrite sinh_0'; lra]. unfold sinh. assert (exp (- x) < exp x) by (apply exp_increasing; lra). lra.
Qed.
Lemma sinh_pos x : 0 < x -> 0 < sinh x.
Proof. intros H. unfold sinh. assert (exp (- x) < exp x) by (apply exp_increasing; lra). lra. Qed.
Lemma sinh_diff a b : sinh (b - a) = sinh b * cosh a - cosh b * sinh a.
Proof.
  unfold sinh, cosh. replace (- (b - a)) with (a - b) by ring. unfold Rminus. rewrite !exp_plus. lra.
Qed.
Lemma cosh_gt_1 x : x <> 0 -> 1 < cosh x.
Proof.
  intros H. assert (E : cosh x = 1 + 2 * (sinh (x / 2)) ^ 2).
  { unfold cosh, sinh. assert (A : exp x = exp (x / 2) * exp (x / 2)) by (rewrite <- exp_plus; f_equal; lra).
    assert (B : exp (- x) = exp (- (x / 2)) * exp (- (x / 2))) by (rewrite <- exp_plus; f_equal; lra).
    assert (C : exp (x / 2) * exp (- (x / 2)) = 1) by (rewrite <- exp_plus; replace (x / 2 + - (x / 2)) with 0 by ring; apply exp_0).
    rewrite A, B. set (u := exp (x / 2)) in *. set (v := exp (- (x / 2))) in *. nra. }
  rewrite E. assert (sinh (x / 2) <> 0).
  { destruct (Rtotal_order x 0) as [L|[L|L]]; [|easy|].
    - assert (0 < sinh (- (x / 2))) by (apply sinh_pos; lra). intros Z.
      assert (sinh (- (x / 2)) = - sinh (x / 2)) by (unfold sinh; rewrite Ropp_involutive; lra). lra.
    - assert (0 < sinh (x / 2)) by (apply sinh_pos; lra). lra. }
  assert (0 < sinh (x / 2) ^ 2) by (rewrite <- Rsqr_pow2; now apply Rlt_0_sqr). lra.
Qed.

(** * C38 *)
Lemma surface_den l a : 0 <= l -> 0 <= a -> 0 < l * sinh a + cosh a.
Proof. intros. assert (A := sinh_nonneg a H0). assert (B := cosh_pos a). assert (0 <= l * sinh a) by now apply Rmult_le_pos. lra. Qed.
Lemma surface_num l a : 0 <= l -> 0 <= a -> 0 < l \/ 0 < a -> 0 < l * cosh a + sinh a.
Proof.
  intros Hl Ha H. assert (A := sinh_nonneg a Ha). assert (B := cosh_pos a).
  destruct H as [H|H]; [assert (0 < l * cosh a) by (now apply Rmult_lt_0_compat); lra|].
  assert (C := sinh_pos a H). assert (0 <= l * cosh a) by (apply Rmult_le_pos; lra). lra.
Qed.
Lemma surface_pos l a : 0 <= l -> 0 <= a -> 0 < l \/ 0 < a -> 0 < surface_factor l a.
Proof. intros. unfold surface_factor. apply Rdiv_lt_0_compat; [now apply surface_num|now apply surface_den]. Qed.
Lemma surface_cross l a b : (l * cosh b + sinh b) * (l * sinh a + cosh a) - (l * cosh a + sinh a) * (l * sinh b + cosh b)
  = (1 - l ^ 2) * sinh (b - a).
Proof. rewrite sinh_diff. ring. Qed.
Lemma frac_le a b c d : 0 < b -> 0 < d -> a * d <= c * b -> a / b <= c / d.
Proof.
  intros. apply Rmult_le_reg_r with (b * d); [now apply Rmult_lt_0_compat|].
  replace (a / b * (b * d)) with (a * d) by (field; lra). replace (c / d * (b * d)) with (c * b) by (field; lra). easy.
Qed.
Lemma surface_up l a b : 0 <= l <= 1 -> 0 <= a <= b -> surface_factor l a <= surface_factor l b.
Proof.
  intros Hl H. unfold surface_factor. apply frac_le; [apply surface_den; lra|apply surface_den; lra|].
  assert (E := surface_cross l a b). assert (0 <= sinh (b - a)) by (apply sinh_nonneg; lra).
  assert (0 <= 1 - l ^ 2) by nra. assert (0 <= (1 - l ^ 2) * sinh (b - a)) by now apply Rmult_le_pos. lra.
Qed.
Lemma surface_down l a b : 1 <= l -> 0 <= a <= b -> surface_factor l b <= surface_factor l a.
Proof.
  intros Hl H. unfold surface_factor. apply frac_le; [apply surface_den; lra|apply surface_den; lra|].
  assert (E := surface_cross l a b). assert (0 <= sinh (b - a)) by (apply sinh_nonneg; lra).
  assert (0 <= l ^ 2 - 1) by nra. assert (0 <= (l ^ 2 - 1) * sinh (b - a)) by now apply Rmult_le_pos. nra.
Qed.
Lemma harg_nonneg x w L : 0 < L -> w <= x -> 0 <= harg x w L.
Proof. intros. unfold harg. destruct Rlt_dec; [lra|]. apply div_nonneg; lra. Qed.
Lemma harg_pos x w L : 0 < L -> w < x -> 0 < harg x w L.
Proof. intros. unfold harg. destruct Rlt_dec; [lra|]. apply Rdiv_lt_0_compat; lra. Qed.
Lemma harg_mono x w w' L : 0 < L -> w' <= w -> harg x w L <= harg x w' L.
Proof.
  intros. unfold harg. assert ((x - w) / L <= (x - w') / L).
  { unfold Rdiv. apply Rmult_le_compat_r; [left; now apply Rinv_0_lt_compat|lra]. }
  destruct Rlt_dec, Rlt_dec; lra.
Qed.
Lemma bias_exp_mono V V' T : 0 < T -> V < V' -> exp (q * V / kb / T) < exp (q * V' / kb / T).
Proof.
  intros. apply exp_increasing. apply div_lt_l; [easy|]. apply div_lt_l; [apply kb_pos|]. apply Rmult_lt_compat_l; [apply q_pos|easy].
Qed.
Lemma bias_exp_0 T : exp (q * 0 / kb / T) = 1.
Proof. unfold Rdiv. rewrite Rmult_0_r, !Rmult_0_l. apply exp_0. Qed.

(** C38: the diffusion current is zero at zero bias, has the sign of the bias, and
    increases with bias for a depletion width that does not depend on it; when the width
    shrinks with bias it still increases in forward bias if the surface recombines
    slower than the bulk (s L <= d), and in reverse bias if it is faster. *)
Theorem C38_diffusion_current_partial : forall x L s d m T, 0 < L -> 0 <= s -> 0 < d -> 0 < m -> 0 < T ->
  let J w V := get_j_dark x w L s d V m T in
  (forall w, J w 0 = 0) /\
  (forall w V V', w <= x -> 0 < s \/ w < x -> V < V' -> J w V < J w V') /\
  (forall w w' V V', w' <= w <= x -> 0 < s \/ w < x -> V < V' ->
     (L * s / d <= 1 /\ 0 <= V) \/ (1 <= L * s / d /\ V' <= 0) -> J w V < J w' V').
Proof.
  intros x L s d m T HL Hs Hd Hm HT J. unfold J, get_j_dark.
  assert (HK : 0 < q * d * m / L). { apply Rdiv_lt_0_compat; [|easy]. assert (Hq := q_pos). apply Rmult_lt_0_compat; [now apply Rmult_lt_0_compat|easy]. }
  assert (Hl : 0 <= L * s / d) by (apply div_nonneg; [apply Rmult_le_pos; lra|easy]).
  assert (Hls : 0 < s -> 0 < L * s / d) by (intros; apply Rdiv_lt_0_compat; [now apply Rmult_lt_0_compat|easy]).
  set (K := q * d * m / L) in *. set (l := L * s / d) in *. clearbody K.
  assert (P : forall w, w <= x -> 0 < s \/ w < x -> 0 < surface_factor l (harg x w L)).
  { intros w Hw H. apply surface_pos; [easy|now apply harg_nonneg|]. destruct H; [left; auto|right; now apply harg_pos]. }
  split; [|split].
  - intros w. rewrite bias_exp_0. ring.
  - intros w V V' Hw H HV. apply Rmult_lt_compat_r; [now apply P|]. apply Rmult_lt_compat_l; [easy|].
    assert (E := bias_exp_mono V V' T HT HV). lra.
  - intros w w' V V' [Hw' Hw] H HV C. rewrite !Rmult_assoc. apply Rmult_lt_compat_l; [easy|].
    assert (E := bias_exp_mono V V' T HT HV). assert (Pw := P w Hw H).
    assert (Pw' : 0 < surface_factor l (harg x w' L)) by (apply P; [lra|destruct H; [now left|right; lra]]).
    assert (Hh := harg_mono x w w' L HL Hw'). assert (H0 := harg_nonneg x w L HL Hw).
    assert (E0 := bias_exp_0 T).
    destruct C as [[C1 C2]|[C1 C2]].
    + assert (U := surface_up l _ _ (conj Hl C1) (conj H0 Hh)).
      assert (0 <= exp (q * V / kb / T) - 1). { destruct C2 as [C2| <-]; [assert (A := bias_exp_mono 0 V T HT C2); lra|lra]. }
      apply Rle_lt_trans with ((exp (q * V / kb / T) - 1) * surface_factor l (harg x w' L)).
      * now apply Rmult_le_compat_l.
      * apply Rmult_lt_compat_r; lra.
    + assert (U := surface_down l _ _ C1 (conj H0 Hh)).
      assert (exp (q * V' / kb / T) - 1 <= 0). { destruct C2 as [C2| ->]; [assert (A := bias_exp_mono V' 0 T HT C2); lra|lra]. }
      apply Rlt_le_trans with ((exp (q * V' / kb / T) - 1) * surface_factor l (harg x w L)).
      * apply Rmult_lt_compat_r; lra.
      * apply Rmult_le_compat_neg_l; lra.
Qed.

Example C38_case : get_j_dark 3 1 1 1 2 1 1 300 < get_j_dark 3 (1/2) 1 1 2 2 1 300 /\ get_j_dark 3 1 1 1 2 0 1 300 = 0.
Proof.
  destruct (C38_diffusion_current_partial 3 1 1 2 1 300) as (Z & _ & M); try lra. split; [|apply Z].
  apply M; lra.
Qed.

(** With a depletion width that shrinks with bias as the code computes it, the current
    can fall when the (forward) bias rises: for a fast surface, a layer that is just
    fully depleted leaks more than one that has a neutral part. *)
Theorem C38_diffusion_increases_refuted : exists es Vbi Na Nd x L s d m T V V',
  0 < es /\ 0 < Na /\ 0 < Nd /\ 0 < x /\ 0 < L /\ 0 < s /\ 0 < d /\ 0 < m /\ 0 < T /\ 0 < V < V' /\ V' < Vbi /\
  let w v := fst (get_depletion_widths (no_widths true) es es Vbi v Na Nd 0) in
  w V <= x /\ get_j_dark x (w V') L s d V' m T < get_j_dark x (w V) L s d V m T.
Proof.
  assert (Hq := q_pos). assert (Hk := kb_pos).
  exists (q / 2), 5, 1, 1, 2, 1, 1000, 1, 1, (q / kb), 1, 4.
  assert (HT : 0 < q / kb) by now apply Rdiv_lt_0_compat. assert (0 < q / 2) by lra.
  repeat (split; [easy || lra|]). cbn [fst get_depletion_widths no_widths j_one_sided j_wn or_attr]. unfold wn_formula.
  replace (2 * (q / 2) * (5 - 1) / (q * 1)) with (2 ^ 2) by (field; lra).
  replace (2 * (q / 2) * (5 - 4) / (q * 1)) with (1 ^ 2) by (field; lra).
  rewrite !sqrt_pow2 by lra. split; [lra|]. unfold get_j_dark.
  replace (q * 1 / kb / (q / kb)) with 1 by (field; lra). replace (q * 4 / kb / (q / kb)) with 4 by (field; lra).
  replace (q * 1 * 1 / 1) with q by field. replace (1 * 1000 / 1) with 1000 by field. unfold harg.
  replace ((2 - 2) / 1) with 0 by field. replace ((2 - 1) / 1) with 1 by field.
  destruct (Rlt_dec 200 0); [lra|]. destruct (Rlt_dec 200 1); [lra|].
  rewrite !Rmult_assoc. apply Rmult_lt_compat_l; [easy|].
  replace (surface_factor 1000 0) with 1000 by (unfold surface_factor; rewrite sinh_0', cosh_0'; field).
  assert (E3 := exp_le_3). assert (E2 : 2 < exp 1) by (assert (A := exp_ineq1 1 ltac:(lra)); lra).
  assert (S1 : 1 / 2 < sinh 1 /\ cosh 1 < 2).
  { unfold sinh, cosh. assert (exp (- (1)) = / exp 1) by apply exp_Ropp. rewrite H0.
    assert (/ exp 1 < / 2) by (apply Rinv_lt_contravar; lra). assert (0 < / exp 1) by (apply Rinv_0_lt_compat; lra). lra. }
  assert (S2 : sinh 1 < cosh 1). { unfold sinh, cosh. assert (A := exp_pos (- (1))). lra. }
  assert (F : surface_factor 1000 1 < 5).
  { unfold surface_factor. assert (C := cosh_pos 1). assert (0 < 1000 * sinh 1 + cosh 1) by lra.
    apply Rmult_lt_reg_r with (1000 * sinh 1 + cosh 1); [easy|].
    replace ((1000 * cosh 1 + sinh 1) / (1000 * sinh 1 + cosh 1) * (1000 * sinh 1 + cosh 1)) with (1000 * cosh 1 + sinh 1) by (field; lra). lra. }
  assert (E4 : exp 4 <= 81).
  { replace 4 with (1 + (1 + (1 + 1))) by lra. rewrite !exp_plus. set (e := exp 1) in *. clearbody e.
    assert (e * e <= 9) by nra. assert (0 < e * e) by nra. replace (e * (e * (e * e))) with ((e * e) * (e * e)) by ring. nra. }
  assert (E4' : 1 < exp 4) by (assert (A := exp_ineq1 4 ltac:(lra)); lra).
  assert (P : 0 < surface_factor 1000 1) by (apply surface_pos; lra).
  set (F1 := surface_factor 1000 1) in *. set (e4 := exp 4) in *. set (e := exp 1) in *. clearbody F1 e4 e. nra.
Qed.

(** The whole dark current at zero bias. *)
Definition phys (p : dep_par) : Prop :=
  0 < p_ln p /\ 0 < p_lp p /\ 0 < p_dn p /\ 0 < p_dp p /\ 0 < p_T p /\ / 1000 < built_in p /\
  match p_Rsh p with Some r => 0 < r | None => True end.

Lemma bias_at_0 pol p : phys p -> internal_bias pol p 0 = 0.
Proof.
  intros (_ & _ & _ & _ & _ & H & _). unfold internal_bias, clamp_bias. rewrite Rmult_0_r.
  destruct Rlt_dec; [easy|lra].
Qed.
Lemma sah_b_0 tp tn kbT : sah_b 0 tp tn kbT 0 = cosh (ln (tp / tn) / 2).
Proof.
  unfold sah_b. replace (- q * 0 / kbT / 2) with 0 by (unfold Rdiv; ring). rewrite exp_0.
  replace (q * 0 / kbT + ln (tp / tn) / 2) with (ln (tp / tn) / 2) by (unfold Rdiv; ring). ring.
Qed.
Lemma ln_ratio_0 a b : 0 < a -> 0 < b -> ln (a / b) = 0 <-> a = b.
Proof.
  intros. split; intros E.
  - assert (a / b = 1) as E1. { apply ln_inv; [now apply Rdiv_lt_0_compat|lra|]. now rewrite ln_1. }
    apply Rmult_eq_reg_r with (/ b); [|apply Rinv_neq_0_compat; lra]. rewrite Rinv_r by lra. exact E1.
  - subst. replace (b / b) with 1 by (field; lra). apply ln_1.
Qed.
Lemma srh_at_0 ni Vbi tp tn w kbT : 0 < kbT -> 0 < tp -> 0 < tn ->
  get_Jsrh ni 0 Vbi tp tn w kbT = if Req_EM_T tp tn then None else Some 0.
Proof.
  intros HT Hp Hn. unfold get_Jsrh. assert (Hq := q_pos).
  destruct (Rle_dec (- 1120 * kbT / q) 0) as [_|N].
  2:{ exfalso. apply N. assert (0 < kbT / q) by now apply Rdiv_lt_0_compat. unfold Rdiv in *. nra. }
  unfold forward, factor, factor_at. rewrite sah_b_0.
  replace (q * 0 / (2 * kbT)) with 0 by (unfold Rdiv; ring). rewrite sinh_0'.
  destruct (Req_EM_T tp tn) as [<-|D].
  - assert (L : ln (tp / tp) = 0) by now apply ln_ratio_0. rewrite L. replace (0 / 2) with 0 by field. rewrite cosh_0'.
    destruct (Rlt_dec 1 1); [lra|]. destruct (Rlt_dec 1 (10 ^ 7)); [|lra].
    unfold factor_mid. replace (1 ^ 2 - 1) with 0 by ring. rewrite sqrt_0. now destruct (Req_EM_T 0 0).
  - assert (C : 1 < cosh (ln (tp / tn) / 2)). { apply cosh_gt_1. intros Z. apply D, ln_ratio_0; lra. }
    set (b := cosh _) in *. clearbody b. destruct (Rlt_dec b 1); [lra|]. destruct (Rlt_dec b (10 ^ 7)).
    + unfold factor_mid. destruct (Req_EM_T (sqrt (b ^ 2 - 1)) 0) as [Z|_]; [|f_equal; unfold Rdiv; ring].
      exfalso. assert (0 < b ^ 2 - 1) by nra. assert (A := sqrt_lt_R0 _ H). lra.
    + f_equal. unfold Rdiv. ring.
Qed.

(** C38: at zero bias the dark current of either polarity is exactly zero when the two
    lifetimes differ. *)
Theorem C38_dark_current_at_zero_partial : forall one pol p, phys p ->
  p_ln p ^ 2 / p_dn p <> p_lp p ^ 2 / p_dp p -> dark_current one pol p 0 = Some 0.
Proof.
  intros one pol p H D. assert (B := bias_at_0 pol p H). unfold dark_current, dark_terms. rewrite B.
  destruct H as (H1 & H2 & H3 & H4 & HT & HV & HR).
  assert (0 < kb * p_T p) by (apply Rmult_lt_0_compat; [apply kb_pos|easy]).
  rewrite srh_at_0; [|easy|apply Rdiv_lt_0_compat; [now apply pow_lt|easy]|apply Rdiv_lt_0_compat; [now apply pow_lt|easy]].
  destruct Req_EM_T as [E|_]; [congruence|]. unfold get_j_dark. rewrite bias_exp_0.
  f_equal. unfold Rdiv. ring.
Qed.

Definition sample_par (l : R) : dep_par :=
  {| p_xn := 1; p_xp := 2; p_xi := 0; p_sn := 1; p_sp := 1; p_ln := l; p_lp := 1; p_dn := 1; p_dp := 1;
     p_Nd := 1; p_Na := 2; p_ni := 1; p_esn := 1; p_esp := 1; p_T := 300; p_Rsh := Some 1000; p_Vbi := Some 1 |}.
Example C38_zero_case : dark_current false NP (sample_par 2) 0 = Some 0 /\ dark_current true PN (sample_par 2) 0 = Some 0.
Proof.
  assert (phys (sample_par 2)) by (unfold phys; cbn; lra).
  split; apply C38_dark_current_at_zero_partial; try easy; cbn; lra.
Qed.

(** With equal lifetimes the dark current at zero bias is nan (the Shockley-Read-Hall
    factor divides zero by zero at b = 1). *)
Theorem C38_equal_lifetimes_refuted : exists one pol p, phys p /\ dark_current one pol p 0 = None.
Proof.
  exists false, PN, (sample_par 1). assert (H : phys (sample_par 1)) by (unfold phys; cbn; lra). split; [easy|].
  assert (B := bias_at_0 PN _ H). unfold dark_current, dark_terms. rewrite B.
  rewrite srh_at_0; cbn; [|assert (A := kb_pos); lra|lra|lra]. destruct Req_EM_T; [easy|exfalso; lra].
Qed.

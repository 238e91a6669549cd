(** C179: quantum efficiency of one junction (QE.py). *)
From Coq Require Import Reals String List Arith Bool Lra Lia.
From Coquelicot Require Import Coquelicot.
From Coq Require Import List.
From Verif Require Import Common PhysConst NumModel NpModel DepletionProps DepletionProps2 DepletionProps3.
From Verif Require Import OldQeModel.
Import ListNotations.
Open Scope R_scope.
Open Scope list_scope.

(** * Specification *)
(** The probability that a carrier made at the distance [t] from the surface is collected at the
    edge of the depleted region at the distance [h] (reciprocity). *)
Definition chance (L s D h t : R) : R :=
  (cosh (t / L) + s * L / D * sinh (t / L)) / (cosh (h / L) + s * L / D * sinh (h / L)).
(** The current of the carriers that are collected of those made at the depth [z]; the surface is
    in front of the region ([far] = false) or behind it. *)
Definition collected (far : bool) (L s D h alpha bs : R) : R -> R :=
  fun z => q * (bs * alpha * exp (- alpha * z)) * chance L s D h (if far then h - z else z).

(** * Neutral regions *)
Section Weighted.
Context (K K' : R -> R) (L alpha h M : R).
Context (HK : forall t, is_derive K t (K' t)) (HK' : forall t, is_derive K' t (K t / L ^ 2)).
Context (HL : 0 < L) (Ha : alpha ^ 2 * L ^ 2 - 1 <> 0).
Let F (t : R) : R := alpha * L ^ 2 / (1 - alpha ^ 2 * L ^ 2) * (exp (- alpha * t) * (alpha * K t + K' t)).
Lemma weighted_int : is_RInt (fun t => alpha * exp (- alpha * t) * K t) 0 h (F h - F 0).
Proof. assert (KC : forall t, continuous K t) by (intro t; apply (ex_derive_continuous K); eexists; apply HK).
  apply (is_RInt_derive F (fun t => alpha * exp (- alpha * t) * K t)).
  - intros x _. unfold F. assert (A := HK x). assert (B := HK' x). auto_derive.
    + repeat split; try (eexists; eassumption).
    + assert (A1 : Derive (fun x1 : R => K x1) x = K' x) by exact (is_derive_unique K x _ A).
      assert (B1 : Derive (fun x1 : R => K' x1) x = K x / L ^ 2) by exact (is_derive_unique K' x _ B).
      rewrite A1, B1. field. lra.
  - intros x _. apply (continuous_mult (fun t => alpha * exp (- alpha * t)) K); [|apply KC].
    apply (ex_derive_continuous (fun t => alpha * exp (- alpha * t))). auto_derive. easy. Qed.
End Weighted.
Lemma light_int alpha h : is_RInt (fun t => alpha * exp (- alpha * t)) 0 h (1 - exp (- alpha * h)).
Proof. replace (1 - exp (- alpha * h)) with (minus (- exp (- alpha * h)) (- exp (- alpha * 0))).
  2:{ unfold minus, plus, opp. cbn. rewrite Rmult_0_r, exp_0. ring. }
  apply (is_RInt_derive (fun t => - exp (- alpha * t)) (fun t => alpha * exp (- alpha * t))).
  - intros x _. auto_derive; [easy|]. ring.
  - intros x _. apply (ex_derive_continuous (fun t => alpha * exp (- alpha * t))). auto_derive. easy. Qed.
Lemma Kf0_0 L k : Kf 0 L k 0 = 1.
Proof. unfold Kf. replace ((0 - 0) / L) with 0 by (unfold Rdiv; ring). rewrite cosh_0', sinh_0'. ring. Qed.
Lemma scaled_int (f g : R -> R) a b l m (c : R) : is_RInt f a b l -> (forall x, g x = c * f x) -> m = c * l -> is_RInt g a b m.
Proof. intros Hf Hg ->. apply (is_RInt_ext (fun x => scal c (f x))); [intros x _; rewrite Hg; reflexivity|].
  exact (is_RInt_scal f a b c l Hf). Qed.

(** The currents of the code are those of the carriers that are collected. *)
Theorem C179_front x w L s D alpha bs j : 0 < L -> 0 < D -> 0 <= s -> w <= x ->
  j_top_light x w L s D alpha bs = Some j -> is_RInt (collected false L s D (x - w) alpha bs) 0 (x - w) j.
Proof. intros HL HD Hs Hw Hj. unfold j_top_light in Hj. cbv zeta in Hj. destruct (Req_EM_T _ 0) as [|Ha]; [discriminate Hj|].
  apply (f_equal (fun o => match o with Some v => v | None => 0 end)) in Hj. cbv beta iota in Hj. subst j.
  unfold harg, lsod. set (h := x - w) in *. assert (Hh : 0 <= h) by (unfold h; lra).
  assert (Hk : 0 <= L * s / D) by (apply div_nonneg; [apply Rmult_le_pos; lra|lra]).
  set (k := L * s / D) in *.
  assert (Hd : 0 < k * sinh (h / L) + cosh (h / L)) by (apply surface_den; [exact Hk|apply div_nonneg; lra]).
  assert (W := weighted_int (Kf 0 L k) (Kf' 0 L k) L alpha h (fun t => Kf_d 0 L k t ltac:(lra)) (fun t => Kf'_d 0 L k t ltac:(lra)) HL Ha).
  cbv beta zeta in W. eapply (scaled_int _ _ _ _ _ _ (q * bs / (k * sinh (h / L) + cosh (h / L))) W).
  - intro z. unfold collected, chance, Kf. replace (s * L / D) with k by (unfold k; field; lra).
    replace ((z - 0) / L) with (z / L) by (f_equal; ring). field. lra.
  - rewrite Kf0_0. unfold Kf, Kf'. rewrite !Rminus_0_r, Rmult_0_r, exp_0.
    replace (0 / L) with 0 by (unfold Rdiv; ring). rewrite cosh_0', sinh_0'.
    set (sh := sinh (h / L)) in *. set (ch := cosh (h / L)) in *. set (e := exp (- alpha * h)).
    field. repeat split; try lra. Qed.
Theorem C179_rear x w L s D alpha bs j : 0 < L -> 0 < D -> 0 <= s -> w <= x ->
  j_bot_light x w L s D alpha bs = Some j -> is_RInt (collected true L s D (x - w) alpha bs) 0 (x - w) j.
Proof. intros HL HD Hs Hw Hj. unfold j_bot_light in Hj. cbv zeta in Hj. destruct (Req_EM_T _ 0) as [|Ha]; [discriminate Hj|].
  apply (f_equal (fun o => match o with Some v => v | None => 0 end)) in Hj. cbv beta iota in Hj. subst j.
  unfold harg, lsod. set (h := x - w) in *. assert (Hh : 0 <= h) by (unfold h; lra).
  assert (Hk : 0 <= L * s / D) by (apply div_nonneg; [apply Rmult_le_pos; lra|lra]).
  set (k := L * s / D) in *.
  assert (Hd : 0 < k * sinh (h / L) + cosh (h / L)) by (apply surface_den; [exact Hk|apply div_nonneg; lra]).
  assert (W := weighted_int (Kf h L (- k)) (Kf' h L (- k)) L alpha h (fun t => Kf_d h L (- k) t ltac:(lra)) (fun t => Kf'_d h L (- k) t ltac:(lra)) HL Ha).
  cbv beta zeta in W. eapply (scaled_int _ _ _ _ _ _ (q * bs / (k * sinh (h / L) + cosh (h / L))) W).
  - intro z. unfold collected, chance, Kf. replace (s * L / D) with k by (unfold k; field; lra).
    replace ((z - h) / L) with (- ((h - z) / L)) by (field; lra). rewrite cosh_opp, sinh_opp. field. lra.
  - unfold Kf, Kf'. replace ((h - h) / L) with 0 by (unfold Rdiv; ring). replace ((0 - h) / L) with (- (h / L)) by (field; lra).
    rewrite Rmult_0_r, exp_0, cosh_0', sinh_0', cosh_opp, sinh_opp.
    set (sh := sinh (h / L)) in *. set (ch := cosh (h / L)) in *. set (e := exp (- alpha * h)).
    field. repeat split; try lra. Qed.
Lemma chance_bounds L s D h t : 0 < L -> 0 < D -> 0 <= s -> 0 <= t <= h -> 0 <= chance L s D h t <= 1.
Proof. intros HL HD Hs Ht. unfold chance.
  assert (Hk : 0 <= s * L / D) by (apply div_nonneg; [apply Rmult_le_pos; lra|lra]). set (k := s * L / D) in *.
  assert (T0 : 0 <= t / L) by (apply div_nonneg; lra).
  assert (T1 : t / L <= h / L) by (apply Rmult_le_compat_r; [left; apply Rinv_0_lt_compat|]; lra).
  assert (C1 := cosh_mono _ _ (conj T0 T1)). assert (S1 := sinh_mono _ _ T1). assert (S0 := sinh_nonneg _ T0).
  assert (C0 := cosh_pos (t / L)). set (a := cosh (t / L)) in *. set (b := sinh (t / L)) in *.
  set (a' := cosh (h / L)) in *. set (b' := sinh (h / L)) in *. clearbody a b a' b' k.
  assert (kb0 : 0 <= k * b) by (apply Rmult_le_pos; lra). assert (kb1 : k * b <= k * b') by (apply Rmult_le_compat_l; lra).
  split; [apply div_nonneg; lra|]. apply (Rmult_le_reg_r (a' + k * b')); [lra|]. unfold Rdiv. rewrite Rmult_assoc, Rinv_l; lra. Qed.
(** No more is collected than was absorbed there. *)
Lemma collected_bounds far L s D h alpha bs j : 0 < L -> 0 < D -> 0 <= s -> 0 <= h -> 0 <= alpha -> 0 <= bs ->
  is_RInt (collected far L s D h alpha bs) 0 h j -> 0 <= j <= q * (bs * (1 - exp (- alpha * h))).
Proof. intros HL HD Hs Hh Ha Hb Hj. assert (Hq := q_pos).
  assert (C : forall z, 0 < z < h -> 0 <= chance L s D h (if far then h - z else z) <= 1).
  { intros z Hz. apply chance_bounds; try assumption. destruct far; lra. }
  assert (G : forall z, 0 <= q * (bs * alpha * exp (- alpha * z))).
  { intro z. apply Rmult_le_pos; [lra|]. apply Rmult_le_pos; [apply Rmult_le_pos; assumption|left; apply exp_pos]. }
  split.
  - assert (Z : is_RInt (fun _ : R => 0) 0 h 0). { assert (W := is_RInt_const 0 h 0). unfold scal in W; cbn in W; unfold mult in W; cbn in W. now rewrite Rmult_0_r in W. }
    apply (is_RInt_le (fun _ => 0) (collected far L s D h alpha bs) 0 h); try assumption.
    intros z Hz. unfold collected. apply Rmult_le_pos; [apply G|apply C; exact Hz].
  - assert (U : is_RInt (fun z => q * (bs * alpha * exp (- alpha * z))) 0 h (q * (bs * (1 - exp (- alpha * h))))).
    { apply (scaled_int (fun t => alpha * exp (- alpha * t)) _ 0 h (1 - exp (- alpha * h)) _ (q * bs) (light_int alpha h)); [intro z; ring|ring]. }
    apply (is_RInt_le (collected far L s D h alpha bs) (fun z => q * (bs * alpha * exp (- alpha * z))) 0 h); try assumption.
    intros z Hz. unfold collected. rewrite <- (Rmult_1_r (q * (bs * alpha * exp (- alpha * z)))) at 2.
    apply Rmult_le_compat_l; [apply G|apply C; exact Hz]. Qed.

(** * Regions *)
(** The first emitter and what is behind it: an intrinsic layer or none, and a base. *)
Definition stacked (l : list qlayer) (e : qlayer) (i : option qlayer) (b : qlayer) : Prop :=
  exists front back, l = front ++ e :: match i with Some x => [x] | None => [] end ++ b :: back
    /\ (forall x, In x front -> ql_role x <> "emitter"%string)
    /\ ql_role e = "emitter"%string /\ (forall x, i = Some x -> ql_role x = "intrinsic"%string) /\ ql_role b = "base"%string.
(** More donors than acceptors, counting what is not given as none. *)
Definition n_type (m : qmat) : Prop :=
  match qm_Na m with Some a => a | None => 0 end < match qm_Nd m with Some d => d | None => 0 end.
Lemma emitter_index_spec front e r : (forall x, In x front -> ql_role x <> "emitter"%string) -> ql_role e = "emitter"%string ->
  emitter_index (front ++ e :: r) = length front.
Proof. intros Hf He. induction front as [|x t IH]; cbn [app emitter_index length].
  - rewrite He. reflexivity.
  - destruct (String.eqb_spec (ql_role x) "emitter") as [E|_]; [exfalso; exact (Hf x (or_introl eq_refl) E)|].
    f_equal. apply IH. intros y Hy. apply Hf. right. exact Hy. Qed.
Lemma emitter_index_found l e : nth_error l (emitter_index l) = Some e ->
  exists r, l = firstn (emitter_index l) l ++ e :: r /\ ql_role e = "emitter"%string
    /\ forall x, In x (firstn (emitter_index l) l) -> ql_role x <> "emitter"%string.
Proof. induction l as [|x t IH]; cbn [emitter_index]; [discriminate|].
  destruct (String.eqb_spec (ql_role x) "emitter") as [E|N].
  - cbn [nth_error firstn app]. intro H. injection H as <-. exists t. repeat split; [exact E|]. intros y [].
  - cbn [nth_error firstn app]. intro H. destruct (IH H) as (r & R1 & R2 & R3). exists r. split; [f_equal; exact R1|].
    split; [exact R2|]. intros y [<-|Hy]; [exact N|exact (R3 y Hy)]. Qed.
Lemma nth_behind {A} (f : list A) e r k : nth_error (f ++ e :: r) (length f + S k) = nth_error r k.
Proof. rewrite nth_error_app2 by lia. replace (length f + S k - length f)%nat with (S k) by lia. reflexivity. Qed.
Lemma find_complete l e i b : stacked l e i b -> find_regions l = Ok (assign e i b).
Proof. intros (front & back & -> & Hf & He & Hi & Hb). unfold find_regions. cbv zeta.
  rewrite (emitter_index_spec _ _ _ Hf He). rewrite nth_error_app2, Nat.sub_diag by lia. cbn [nth_error].
  rewrite !nth_behind. destruct i as [x|]; cbn [app nth_error].
  - rewrite (Hi x eq_refl), Hb. reflexivity.
  - rewrite Hb. reflexivity. Qed.
Lemma find_sound l g : find_regions l = Ok g -> exists e i b, stacked l e i b /\ g = assign e i b.
Proof. unfold find_regions. cbv zeta. intro H. destruct (nth_error l (emitter_index l)) as [e|] eqn:He; [|discriminate H].
  destruct (emitter_index_found l e He) as (r & R1 & R2 & R3). set (f := firstn (emitter_index l) l) in *.
  assert (Li : emitter_index l = length f) by (rewrite R1; apply emitter_index_spec; assumption).
  rewrite Li in H. clearbody f. subst l. rewrite !nth_behind in H.
  destruct r as [|x r]; [discriminate H|]. cbn [nth_error] in H.
  destruct (String.eqb_spec (ql_role x) "intrinsic") as [Ei|Ni].
  - destruct r as [|y r]; [discriminate H|]. cbn [nth_error] in H.
    destruct (String.eqb_spec (ql_role y) "base") as [Eb|]; [|discriminate H]. injection H as <-.
    exists e, (Some x), y. split; [|reflexivity]. exists f, r. split; [reflexivity|]. split; [exact R3|]. split; [exact R2|]. split; [|exact Eb].
    intros z Hz. injection Hz as <-. exact Ei.
  - destruct (String.eqb_spec (ql_role x) "base") as [Eb|]; [|discriminate H]. injection H as <-.
    exists e, None, x. split; [|reflexivity]. exists f, r. split; [reflexivity|]. split; [exact R3|]. split; [exact R2|]. split; [|exact Eb].
    intros z Hz. discriminate Hz. Qed.
Theorem C179_regions l : (forall g, find_regions l = Ok g <->
    exists e i b, stacked l e i b /\ g_i g = i
      /\ (n_type (ql_mat e) -> g_np g = true /\ g_n g = e /\ g_p g = b)
      /\ (~ n_type (ql_mat e) -> g_np g = false /\ g_p g = e /\ g_n g = b))
  /\ (forall x, find_regions l = Err x -> x = RuntimeError \/ x = IndexError).
Proof. split.
  - intro g. split.
    + intro H. destruct (find_sound l g H) as (e & i & b & S0 & ->). exists e, i, b. split; [exact S0|].
      unfold assign, is_np, n_type, orelse. destruct (Rlt_dec _ _) as [L|L]; cbn [g_i g_np g_n g_p]; (split; [reflexivity|]); split; intro; tauto.
    + intros (e & i & b & S0 & Hi & H1 & H2). rewrite (find_complete _ _ _ _ S0). f_equal.
      destruct g as [np n i' p]. cbn [g_i g_np g_n g_p] in *. subst i'. unfold assign, is_np. unfold n_type, orelse in *.
      destruct (Rlt_dec _ _) as [L|L]; [destruct (H1 L) as (-> & -> & ->)|destruct (H2 L) as (-> & -> & ->)]; reflexivity.
  - unfold find_regions. cbv zeta. intros x H. destruct (nth_error l (emitter_index l)); [|injection H as <-; tauto].
    destruct (nth_error l (emitter_index l + 1)) as [y|]; [|injection H as <-; tauto].
    destruct (ql_role y =? "intrinsic")%string.
    + destruct (nth_error l (emitter_index l + 2)) as [z|]; [|injection H as <-; tauto].
      destruct (ql_role z =? "base")%string; [discriminate H|injection H as <-; tauto].
    + destruct (ql_role y =? "base")%string; [discriminate H|injection H as <-; tauto]. Qed.

(** * The widths of the depleted regions *)
(** Neutral charge and Poisson's equation: the drop over both regions and the layer between. *)
Theorem C179_depletion j es xi Na Nd Vbi : qj_onesided j = false -> qj_wn j = None -> qj_wp j = None ->
  0 < es -> 0 <= xi -> 0 < Na -> 0 < Nd -> 0 <= Vbi ->
  let wn := fst (widths j es xi Na Nd Vbi) in let wp := snd (widths j es xi Na Nd Vbi) in
  0 <= wn /\ 0 <= wp /\ q * Nd * wn = q * Na * wp
  /\ q * Nd * wn / es * (wn / 2 + xi + wp / 2) = Vbi.
Proof. intros Ho Hn Hp He Hx HNa HNd HV. assert (Hq := q_pos). unfold widths. rewrite Ho, Hn, Hp. cbn [orelse fst snd].
  set (A := 2 * es * Vbi / q * (1 / Na + 1 / Nd)).
  assert (A0 : 0 <= A).
  { unfold A. apply Rmult_le_pos; [apply div_nonneg; [apply Rmult_le_pos; lra|exact Hq]|].
    apply Rplus_le_le_0_compat; apply div_nonneg; lra. }
  assert (X := root_ge xi A Hx A0).
  assert (S2 : sqrt (xi ^ 2 + A) * sqrt (xi ^ 2 + A) = xi ^ 2 + A) by (apply sqrt_sqrt; assert (0 <= xi ^ 2) by apply pow2_ge_0; lra).
  set (s := sqrt (xi ^ 2 + A)) in *. clearbody s.
  assert (R1 : (- xi + s) / (1 + Nd / Na) = (s - xi) * Na / (Na + Nd)) by (field; lra).
  assert (R2 : (- xi + s) / (1 + Na / Nd) = (s - xi) * Nd / (Na + Nd)) by (field; lra).
  rewrite R1, R2. repeat split.
  - apply div_nonneg; [apply Rmult_le_pos|]; lra.
  - apply div_nonneg; [apply Rmult_le_pos|]; lra.
  - field. lra.
  - replace (q * Nd * ((s - xi) * Na / (Na + Nd)) / es * ((s - xi) * Na / (Na + Nd) / 2 + xi + (s - xi) * Nd / (Na + Nd) / 2))
      with (q * Nd * Na / (2 * es * (Na + Nd)) * (s * s - xi ^ 2)) by (field; lra).
    rewrite S2. unfold A. field. lra. Qed.
(** With the one-sided approximation each region alone takes the voltage; given widths are used. *)
Theorem C179_widths j es xi Na Nd Vbi : 0 < es -> 0 < Na -> 0 < Nd -> 0 <= Vbi ->
  (forall w, qj_wn j = Some w -> fst (widths j es xi Na Nd Vbi) = w)
  /\ (forall w, qj_wp j = Some w -> snd (widths j es xi Na Nd Vbi) = w)
  /\ (qj_onesided j = true -> qj_wn j = None -> q * Nd * fst (widths j es xi Na Nd Vbi) ^ 2 / (2 * es) = Vbi)
  /\ (qj_onesided j = true -> qj_wp j = None -> q * Na * snd (widths j es xi Na Nd Vbi) ^ 2 / (2 * es) = Vbi).
Proof. intros He HNa HNd HV. assert (Hq := q_pos). unfold widths.
  assert (P : forall N, 0 < N -> q * N * sqrt (2 * es * Vbi / (q * N)) ^ 2 / (2 * es) = Vbi).
  { intros N HN. cbn [pow]. rewrite Rmult_1_r, sqrt_sqrt by (apply div_nonneg; [apply Rmult_le_pos; lra|apply Rmult_lt_0_compat; lra]). field. lra. }
  destruct (qj_onesided j); cbn [fst snd]; repeat split.
  all: try (intros w ->; reflexivity); try discriminate; intros _ ->; cbn [orelse]; apply P; assumption. Qed.

(** * Photons of a junction *)
(** What is left behind layers. *)
Definition remains (ls : list qlayer) (E : R) : R :=
  exp (- fold_right (fun x a => qm_alpha (ql_mat x) E * ql_width x + a) 0 ls).
(** Emitter, intrinsic layer and base of the regions, from the front. *)
Definition parts (g : regions) : list qlayer :=
  let i := match g_i g with Some x => [x] | None => [] end in
  if g_np g then g_n g :: i ++ [g_p g] else g_p g :: i ++ [g_n g].
(** Numbers of a junction: lengths, diffusivities and velocities make sense, depleted regions are
    inside their layers, layers do not emit light. *)
Definition sound (g : regions) (p : pars) : Prop :=
  0 < r_ln p /\ 0 < r_lp p /\ 0 < r_dn p /\ 0 < r_dp p /\ 0 <= r_sn p /\ 0 <= r_sp p
  /\ 0 <= r_wn p <= ql_width (g_n g) /\ 0 <= r_wp p <= ql_width (g_p g)
  /\ r_xn p = ql_width (g_n g) /\ r_xp p = ql_width (g_p g)
  /\ r_xi p = match g_i g with Some x => ql_width x | None => 0 end /\ 0 <= r_xi p
  /\ forall x E, In x (parts g) -> 0 <= qm_alpha (ql_mat x) E.
Definition bs_entry (l : light) (e : entry) (g : regions) : Prop :=
  e_E e = l_E l /\ e_b0 e = l_b0 l /\ 0 <= e_jn e /\ 0 <= e_jp e /\ 0 <= e_jgen e
  /\ e_jn e + e_jp e + e_jgen e <= q * (l_bs l * (1 - remains (parts g) (l_E l))).
Lemma entry_sound g p l e : sound g p -> 0 <= l_bs l -> currents g p l = Some e -> bs_entry l e g.
Proof. intros (Hln & Hlp & Hdn & Hdp & Hsn & Hsp & Hwn & Hwp & Exn & Exp & Exi & Hxi & Ha) Hb He.
  unfold currents in He. cbv zeta in He. assert (Hq := q_pos).
  assert (HaN : 0 <= qm_alpha (ql_mat (g_n g)) (l_E l)).
  { apply Ha. unfold parts. destruct (g_np g); [left; reflexivity|]. right. apply in_or_app. right. left. reflexivity. }
  assert (HaP : 0 <= qm_alpha (ql_mat (g_p g)) (l_E l)).
  { apply Ha. unfold parts. destruct (g_np g); [|left; reflexivity]. right. apply in_or_app. right. left. reflexivity. }
  set (aI := match g_i g with Some x => qm_alpha (ql_mat x) (l_E l) | None => 0 end) in *.
  assert (HaI : 0 <= aI).
  { unfold aI. destruct (g_i g) as [x|] eqn:G; [|lra]. apply Ha. unfold parts. rewrite G. destruct (g_np g); right; left; reflexivity. }
  assert (D : remains (parts g) (l_E l) = exp (- qm_alpha (ql_mat (g_n g)) (l_E l) * r_xn p - qm_alpha (ql_mat (g_p g)) (l_E l) * r_xp p - aI * r_xi p)).
  { unfold remains, parts. f_equal. rewrite Exn, Exp, Exi. unfold aI. destruct (g_np g), (g_i g); cbn [app fold_right]; ring. }
  unfold bs_entry. rewrite D. rewrite <- Exn in Hwn. rewrite <- Exp in Hwp. clear Ha D Exn Exp Exi.
  set (aN := qm_alpha (ql_mat (g_n g)) (l_E l)) in *. set (aP := qm_alpha (ql_mat (g_p g)) (l_E l)) in *. clearbody aI aN aP.
  set (bs := l_bs l) in *. clearbody bs.
  assert (GI : 0 <= 1 - exp (- aI * r_xi p - aN * r_wn p - aP * r_wp p)).
  { assert (U : exp (- aI * r_xi p - aN * r_wn p - aP * r_wp p) <= exp 0).
    { assert (0 <= aI * r_xi p) by (apply Rmult_le_pos; lra). assert (0 <= aN * r_wn p) by (apply Rmult_le_pos; lra).
      assert (0 <= aP * r_wp p) by (apply Rmult_le_pos; lra).
      destruct (Rle_lt_dec 0 (- aI * r_xi p - aN * r_wn p - aP * r_wp p)) as [L|L].
      - replace (- aI * r_xi p - aN * r_wn p - aP * r_wp p) with 0 by lra. lra.
      - left. apply exp_increasing. exact L. }
    rewrite exp_0 in U. lra. }
  assert (Hhn : 0 <= r_xn p - r_wn p) by lra. assert (Hhp : 0 <= r_xp p - r_wp p) by lra.
  destruct (g_np g).
  - destruct (j_top_light _ _ _ _ _ _ _) as [t|] eqn:Ht; [|discriminate He].
    destruct (j_bot_light _ _ _ _ _ _ _) as [b|] eqn:Hbt; [|discriminate He]. injection He as <-.
    cbn [e_E e_b0 e_jn e_jp e_jgen].
    assert (T := collected_bounds _ _ _ _ _ _ _ _ Hlp Hdn Hsn Hhn HaN Hb (C179_front _ _ _ _ _ _ _ _ Hlp Hdn Hsn (proj2 Hwn) Ht)).
    assert (B := collected_bounds _ _ _ _ _ _ _ _ Hln Hdp Hsp Hhp HaP
                   (Rmult_le_pos _ _ Hb (Rlt_le _ _ (exp_pos _))) (C179_rear _ _ _ _ _ _ _ _ Hln Hdp Hsp (proj2 Hwp) Hbt)).
    repeat split; try lra.
    + apply Rmult_le_pos; [|exact GI]. apply Rmult_le_pos; [lra|]. apply Rmult_le_pos; [exact Hb|left; apply exp_pos].
    + eapply Rle_trans; [apply Rplus_le_compat_r, Rplus_le_compat; [apply T|apply B]|]. right.
      replace (- aN * r_xn p - aP * r_xp p - aI * r_xi p)
        with (- aN * (r_xn p - r_wn p) + (- aI * r_xi p - aN * r_wn p - aP * r_wp p) + - aP * (r_xp p - r_wp p)) by ring.
      replace (- aN * r_xn p - aP * r_wp p - r_xi p * aI)
        with (- aN * (r_xn p - r_wn p) + (- aI * r_xi p - aN * r_wn p - aP * r_wp p)) by ring.
      rewrite !exp_plus. ring.
  - destruct (j_top_light _ _ _ _ _ _ _) as [t|] eqn:Ht; [|discriminate He].
    destruct (j_bot_light _ _ _ _ _ _ _) as [b|] eqn:Hbt; [|discriminate He]. injection He as <-.
    cbn [e_E e_b0 e_jn e_jp e_jgen].
    assert (T := collected_bounds _ _ _ _ _ _ _ _ Hln Hdp Hsp Hhp HaP Hb (C179_front _ _ _ _ _ _ _ _ Hln Hdp Hsp (proj2 Hwp) Ht)).
    assert (B := collected_bounds _ _ _ _ _ _ _ _ Hlp Hdn Hsn Hhn HaN
                   (Rmult_le_pos _ _ Hb (Rlt_le _ _ (exp_pos _))) (C179_rear _ _ _ _ _ _ _ _ Hlp Hdn Hsn (proj2 Hwn) Hbt)).
    repeat split; try lra.
    + apply Rmult_le_pos; [|exact GI]. apply Rmult_le_pos; [lra|]. apply Rmult_le_pos; [exact Hb|left; apply exp_pos].
    + eapply Rle_trans; [apply Rplus_le_compat_r, Rplus_le_compat; [apply B|apply T]|]. right.
      replace (- aN * r_xn p - aP * r_xp p - aI * r_xi p)
        with (- aP * (r_xp p - r_wp p) + (- aI * r_xi p - aN * r_wn p - aP * r_wp p) + - aN * (r_xn p - r_wn p)) by ring.
      replace (- aP * r_xp p - aN * r_wn p - r_xi p * aI)
        with (- aP * (r_xp p - r_wp p) + (- aI * r_xi p - aN * r_wn p - aP * r_wp p)) by ring.
      rewrite !exp_plus. ring. Qed.

(** Properties C34, C77: tunnel junctions. *)
From Coq Require Import Reals List Arith Bool Lia Lra Psatz.
From Coquelicot Require Import Coquelicot.
From Coq Require Import List.
From Verif Require Import Common PhysConst InterpModel InterpProps NpModel TunnelModel.
Import ListNotations.
Open Scope R_scope.
Open Scope list_scope.

(** * C34 *)

(** Resistive: with any positive resistance, voltage and current are inverse to
    each other and both increase. *)
Theorem C34_resistive_inverse_partial :
  forall Rt volts, 0 < Rt ->
  let j := resistive Rt volts in
  (forall v, exists i, t_iv j v = Some i /\ t_vi j i = Some v) /\
  (forall i, exists v, t_vi j i = Some v /\ t_iv j v = Some i) /\
  (forall v w i k, v < w -> t_iv j v = Some i -> t_iv j w = Some k -> i < k) /\
  (forall i k v w, i < k -> t_vi j i = Some v -> t_vi j k = Some w -> v < w) /\
  t_current j = map (t_iv j) (t_voltage j).
Proof.
  intros Rt volts HR j.
  assert (Hd : forall v, np_divide v Rt = Some (v / Rt)) by (intros v; unfold np_divide; destruct (Req_EM_T Rt 0); [lra|reflexivity]).
  cbn. repeat split.
  - intros v. exists (v / Rt). rewrite Hd. split; [reflexivity|]. f_equal. field. lra.
  - intros i. exists (i * Rt). rewrite Hd. split; [reflexivity|]. f_equal. field. lra.
  - intros v w i k Hvw. rewrite !Hd. intros E1 E2. injection E1 as <-. injection E2 as <-.
    apply Rmult_lt_compat_r; [now apply Rinv_0_lt_compat|assumption].
  - intros i k v w Hik E1 E2. injection E1 as <-. injection E2 as <-. now apply Rmult_lt_compat_r.
Qed.
Print Assumptions C34_resistive_inverse_partial.
Example C34_case : t_iv (resistive 2 [0; 1]) 3 = Some (3 / 2).
Proof. cbn. unfold np_divide. destruct (Req_EM_T 2 0); [lra|reflexivity]. Qed.

(** The documented minimum resistance is not enforced: zero resistance (the value a
    user gives for an ideal tunnel junction) has no current anywhere. *)
Theorem C34_zero_resistance_refuted :
  exists Rt volts, 0 <= Rt /\ forall v, t_iv (resistive Rt volts) v = None.
Proof. exists 0, [0; 1]. split; [lra|]. intros v. cbn. unfold np_divide. now destruct (Req_EM_T 0 0). Qed.
Print Assumptions C34_zero_resistance_refuted.

Lemma running_ge m cur : forall x, In x (running m cur) -> m <= x.
Proof.
  revert m. induction cur as [|c0 cur IH]; intros m x; [intros []|]. cbn. intros [<-|H]; [apply Rmax_l|].
  apply IH in H. pose proof (Rmax_l m c0). lra.
Qed.
Lemma running_sorted m cur : increasing (m :: cur) -> running m cur = cur.
Proof.
  revert m. induction cur as [|c0 cur IH]; intros m H; [reflexivity|]. cbn.
  assert (m < c0) by (apply (H 0%nat 1%nat); simpl; lia). rewrite Rmax_right by lra. f_equal.
  apply IH. intros i j Hij. apply (H (S i) (S j)). simpl in *. lia.
Qed.

(** External data: when the solver succeeds, iv reproduces the data; vi reproduces
    it as well if the junction's current attribute happened to hold increasing
    external currents. *)
Theorem C34_external_partial :
  forall ext_v ext_c current volts j,
    external ext_v ext_c current volts = Ok j -> increasing ext_v ->
    (forall i, (i < length ext_v)%nat -> t_iv j (at_ ext_v i) = Some (at_ ext_c i)) /\
    (increasing ext_c -> (current = Some ext_c \/ length ext_c = 1%nat) ->
     forall i, (i < length ext_v)%nat -> t_vi j (at_ ext_c i) = Some (at_ ext_v i)).
Proof.
  intros ext_v ext_c current volts j H Hv. unfold external in H. destruct ext_c as [|c0 ext_c]; [discriminate|].
  set (mj := match ext_c, current with
        | [], _ => Ok [c0]
        | _, None => Err AttributeError
        | _, Some cur =>
            if Nat.leb (length (c0 :: ext_c)) (length cur)
            then Ok (c0 :: running c0 (firstn (length ext_c) (tl cur)))
            else Err IndexError
        end) in *.
  destruct mj as [m|] eqn:Em; [|discriminate]. cbn [bindR] in H.
  destruct (Nat.eqb_spec (length ext_v) (length (c0 :: ext_c))) as [El|]; [|discriminate]. injection H as <-. cbn [t_iv t_vi].
  split.
  - intros i Hi. f_equal. now apply np_interp_node.
  - intros Hc Hcur i Hi. f_equal.
    assert (E : m = c0 :: ext_c).
    { unfold mj in Em. destruct Hcur as [Hcur|Hl].
      - subst current. destruct ext_c as [|c1 ext_c]; [now injection Em as <-|]. rewrite Nat.leb_refl in Em.
        injection Em as <-. cbn [tl]. rewrite firstn_all. f_equal. now apply (running_sorted c0 (c1 :: ext_c)).
      - destruct ext_c; [|discriminate]. now injection Em as <-. }
    rewrite E. apply np_interp_node; [assumption|]. rewrite El in Hi. exact Hi.
Qed.
Print Assumptions C34_external_partial.
Example C34_external_case :
  exists j, external [0; 1; 2] [0; 3; 9] (Some [0; 3; 9]) [1] = Ok j /\ increasing [0; 1; 2] /\ increasing [0; 3; 9].
Proof. eexists. split; [reflexivity|]. split; apply inc3; lra. Qed.

(** On a new junction the solver fails for every table with at least two points. *)
Theorem C34_external_new_junction_fails :
  forall ext_v ext_c volts, (2 <= length ext_c)%nat -> external ext_v ext_c None volts = Err AttributeError.
Proof. intros ext_v [|c0 [|c1 ext_c]] volts H; simpl in H; try lia. reflexivity. Qed.
Print Assumptions C34_external_new_junction_fails.
Theorem C34_external_refuted :
  exists ext_v ext_c volts, length ext_v = length ext_c /\ increasing ext_v /\ increasing ext_c /\
    forall j, external ext_v ext_c None volts <> Ok j.
Proof. exists [0; 1; 2], [0; 3; 9], [0; 1]. split; [reflexivity|]. split; [apply inc3; lra|]. split; [apply inc3; lra|]. intros j. discriminate. Qed.
Print Assumptions C34_external_refuted.
Example C34_external_new_junction_case : (2 <= length [0; 3; 9])%nat.
Proof. simpl. lia. Qed.

(** * C77: the parametric tunnel junction *)

(** Below the peak voltage the current is strictly increasing, and the reversed
    ([pn]) junction is the mirror image of the other one. *)
Lemma tunnel_derive p v : p_vpeak p <> 0 ->
  is_derive (tunnel_current p) v (p_jpeak p / p_vpeak p * (1 - v / p_vpeak p) * exp (1 - v / p_vpeak p)).
Proof.
  intros H. unfold tunnel_current. auto_derive; [exact I|].
  set (E := exp (1 + - (v * / p_vpeak p))). unfold Rminus, Rdiv. fold E. field. assumption.
Qed.

Lemma tunnel_mono p v w : 0 < p_jpeak p -> 0 < p_vpeak p -> v < w <= p_vpeak p -> tunnel_current p v < tunnel_current p w.
Proof.
  intros Hj Hp Hvw.
  set (df := fun v => p_jpeak p / p_vpeak p * (1 - v / p_vpeak p) * exp (1 - v / p_vpeak p)).
  assert (Hd : forall x, is_derive (tunnel_current p) x (df x)) by (intros x; apply tunnel_derive; lra).
  assert (Hinc : forall a b, a < b <= p_vpeak p -> tunnel_current p a <= tunnel_current p b /\ (b < p_vpeak p -> tunnel_current p a < tunnel_current p b)).
  { intros a b Hab. destruct (MVT_gen (tunnel_current p) a b df) as (y & Hy & Ey).
    - intros y _. apply Hd.
    - intros y _. apply continuity_pt_filterlim. apply (ex_derive_continuous (tunnel_current p)). now exists (df y).
    - rewrite Rmin_left, Rmax_right in Hy by lra.
      assert (Hf : 0 <= 1 - y / p_vpeak p /\ (y < p_vpeak p -> 0 < 1 - y / p_vpeak p)).
      { assert (E : 1 - y / p_vpeak p = (p_vpeak p - y) / p_vpeak p) by (field; lra). rewrite E. split.
        - apply Rmult_le_pos; [lra|]. left. now apply Rinv_0_lt_compat.
        - intros. apply Rdiv_lt_0_compat; lra. }
      assert (HK : 0 < p_jpeak p / p_vpeak p) by now apply Rdiv_lt_0_compat.
      split.
      + assert (0 <= df y * (b - a)).
        { apply Rmult_le_pos; [|lra]. unfold df. apply Rmult_le_pos; [apply Rmult_le_pos; [lra|tauto]|left; apply exp_pos]. }
        lra.
      + intros Hb. assert (0 < df y * (b - a)).
        { apply Rmult_lt_0_compat; [|lra]. unfold df. apply Rmult_lt_0_compat; [apply Rmult_lt_0_compat; [lra|apply Hf; lra]|apply exp_pos]. }
        lra. }
  set (m := (v + w) / 2). destruct (Hinc v m ltac:(unfold m; lra)) as [_ H1]. destruct (Hinc m w ltac:(unfold m; lra)) as [H2 _].
  specialize (H1 ltac:(unfold m; lra)). lra.
Qed.

Theorem C77_parametric_partial :
  forall p T volts,
    0 < p_jpeak p -> 0 < p_vpeak p -> 0 <= p_jvalley p -> 0 <= p_pref p -> 0 <= p_j01 p -> 0 < T ->
    (forall v w, v < w <= p_vpeak p -> parametric_iv p T v < parametric_iv p T w) /\
    (nondecreasing volts -> (forall i, (i < length volts)%nat -> at_ volts i <= p_vpeak p) -> nondecreasing (MJ_current p T volts)) /\
    (forall p' j, p' = {| p_jpeak := p_jpeak p; p_vpeak := p_vpeak p; p_jvalley := p_jvalley p; p_vvalley := p_vvalley p;
                          p_pref := p_pref p; p_j01 := p_j01 p; p_pn := negb (p_pn p) |} ->
       volts <> [] ->  nondecreasing (MJ_current p T volts) ->
       exists v, t_vi (parametric p T volts) j = Some v /\ t_vi (parametric p' T volts) (- j) = Some (- v)).
Proof.
  intros p T volts Hj Hp Hv Hf H0 HT.
  assert (Hmono : forall v w, v < w <= p_vpeak p -> parametric_iv p T v < parametric_iv p T w).
  { intros v w Hvw. unfold parametric_iv. pose proof (tunnel_mono p v w Hj Hp Hvw).
    assert (excess_current p v <= excess_current p w).
    { unfold excess_current. apply Rmult_le_compat_l; [assumption|].
      destruct (Rle_lt_or_eq_dec (p_pref p * (v - p_vvalley p)) (p_pref p * (w - p_vvalley p))) as [E|E].
      - apply Rmult_le_compat_l; lra.
      - left. now apply exp_increasing.
      - rewrite E. lra. }
    assert (diffusion_current p T v <= diffusion_current p T w).
    { unfold diffusion_current. apply Rmult_le_compat_l; [assumption|]. left. apply exp_increasing. pose proof q_pos. pose proof kb_pos.
      unfold Rdiv. apply Rmult_lt_compat_r; [now apply Rinv_0_lt_compat|]. apply Rmult_lt_compat_r; [now apply Rinv_0_lt_compat|].
      apply Rmult_lt_compat_l; lra. }
    lra. }
  split; [assumption|]. split.
  - intros Hs Hb i k Hik. unfold MJ_current in *. rewrite map_length in Hik.
    assert (Hn : forall n, (n < length volts)%nat -> at_ (map (fun v => if Rle_dec v (p_vpeak p) then parametric_iv p T v
                else Rmax (parametric_iv p T (p_vpeak p)) (parametric_iv p T v)) volts) n = parametric_iv p T (at_ volts n)).
    { intros n Hn. set (f := fun v => if Rle_dec v (p_vpeak p) then _ else _).
      rewrite (nth_indep _ _ (f 0)) by now rewrite map_length. rewrite map_nth. unfold f. destruct (Rle_dec _ _) as [|Hx]; [reflexivity|].
      exfalso. apply Hx, Hb, Hn. }
    rewrite !Hn by lia.
    assert (Hle : at_ volts i <= at_ volts k) by now apply Hs.
    destruct (Rle_lt_or_eq_dec _ _ Hle) as [E|E]; [|rewrite E; lra]. left. apply Hmono. split; [assumption|]. apply Hb. lia.
  - intros p' j Ep' Hne Hm.
    assert (Hl : (1 <= length (MJ_current p T volts))%nat).
    { unfold MJ_current. rewrite map_length. destruct volts; [congruence|simpl; lia]. }
    assert (Eq : MJ_current p' T volts = MJ_current p T volts) by (rewrite Ep'; reflexivity).
    assert (Hopp : forall v, np_interp (MJ_current p T volts) (map Ropp volts) v = - np_interp (MJ_current p T volts) volts v).
    { intros v. destruct (np_interp_weights (MJ_current p T volts) v Hm Hl) as (i & k & w & Hi & Hk & _ & _ & Ew & _).
      unfold MJ_current in Hi, Hk. rewrite map_length in Hi, Hk.
      rewrite !Ew. assert (Hx : forall n, (n < length volts)%nat -> at_ (map Ropp volts) n = - at_ volts n).
      { intros n Hn. rewrite (nth_indep _ _ (- 0)) by now rewrite map_length. now rewrite map_nth. }
      rewrite !Hx by assumption. ring. }
    unfold parametric. cbn [t_vi]. rewrite Eq. assert (Epn : p_pn p' = negb (p_pn p)) by (rewrite Ep'; reflexivity). rewrite Epn. destruct (p_pn p); cbn [negb]; eexists; (split; [reflexivity|]);
      f_equal; rewrite !Hopp; [now rewrite Ropp_involutive|now rewrite Ropp_involutive].
Qed.
Print Assumptions C77_parametric_partial.

Definition ex_par : parametric_args :=
  {| p_jpeak := 1; p_vpeak := 1; p_jvalley := 5 / 100; p_vvalley := 1; p_pref := 1; p_j01 := 0; p_pn := true |}.
Example C77_case : 0 < p_jpeak ex_par /\ 0 < p_vpeak ex_par /\ 0 <= p_jvalley ex_par /\ 0 <= p_pref ex_par /\ 0 <= p_j01 ex_par.
Proof. cbn. lra. Qed.

(** Beyond the peak the array handed to np.interp as abscissa need not be
    increasing: the excess current makes the curve rise above its value at v_peak
    before it falls. *)
Theorem C77_not_monotone_refuted :
  exists p T volts, 0 < p_jpeak p /\ 0 < p_vpeak p /\ 0 <= p_jvalley p /\ 0 <= p_pref p /\ 0 <= p_j01 p /\ 0 < T /\
    increasing volts /\ ~ nondecreasing (MJ_current p T volts).
Proof.
  exists ex_par, 300, [1; 1 + 5 / 100; 2]. do 6 (split; [cbn; lra|]). split; [apply inc3; lra|].
  intros H. specialize (H 1%nat 2%nat ltac:(simpl; lia)).
  assert (Eiv : forall v, parametric_iv ex_par 300 v = v * exp (1 - v) + 5 / 100 * exp (v - 1)).
  { intros v. unfold parametric_iv, tunnel_current, excess_current, diffusion_current. cbn [ex_par p_jpeak p_vpeak p_jvalley p_vvalley p_pref p_j01].
    replace (v / 1) with v by field. replace (1 * (v - 1)) with (v - 1) by ring. replace (1 * v / 1) with v by field. ring. }
  unfold MJ_current in H. cbn [map nth p_vpeak ex_par] in H. fold ex_par in H.
  destruct (Rle_dec (1 + 5 / 100) 1); [lra|]. destruct (Rle_dec 2 1); [lra|].
  assert (E1 : parametric_iv ex_par 300 1 = 105 / 100).
  { rewrite Eiv. replace (1 - 1) with 0 by ring. rewrite exp_0. lra. }
  assert (E2 : 105 / 100 < parametric_iv ex_par 300 (1 + 5 / 100)).
  { rewrite Eiv. pose proof (exp_ineq1 (1 - (1 + 5 / 100)) ltac:(lra)). pose proof (exp_ineq1 (1 + 5 / 100 - 1) ltac:(lra)). lra. }
  assert (E3 : parametric_iv ex_par 300 2 < 105 / 100).
  { rewrite Eiv. replace (2 - 1) with 1 by ring. replace (1 - 2) with (- (1)) by ring. rewrite exp_Ropp.
    pose proof exp_le_3. assert (He : 225 / 100 <= exp 1).
    { replace 1 with (1 / 2 + 1 / 2) by lra. rewrite exp_plus. pose proof (exp_ineq1_le (1 / 2)). nra. }
    assert (/ exp 1 <= / (225 / 100)) by (apply Rinv_le_contravar; lra). lra. }
  fold ex_par in *. rewrite E1 in H. rewrite Rmax_right in H by lra. rewrite Rmax_left in H by lra. lra.
Qed.
Print Assumptions C77_not_monotone_refuted.

(** The junction is not passive at zero bias: with a valley current it carries a
    positive current at zero voltage. *)
Theorem C77_current_at_zero_bias_refuted :
  exists p, 0 < p_jpeak p /\ 0 < p_vpeak p /\ 0 < p_jvalley p /\ 0 <= p_pref p /\ 0 <= p_j01 p /\
    forall T, parametric_iv p T 0 > 0.
Proof.
  exists ex_par. do 5 (split; [cbn; lra|]). intros T. unfold parametric_iv, tunnel_current, excess_current, diffusion_current.
  cbn [ex_par p_jpeak p_vpeak p_jvalley p_vvalley p_pref p_j01]. pose proof (exp_pos (1 * (0 - 1))).
  replace (1 * 0 / 1 * exp (1 - 0 / 1)) with 0 by (unfold Rdiv; ring). lra.
Qed.
Print Assumptions C77_current_at_zero_bias_refuted.

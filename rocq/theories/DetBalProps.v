(** Properties C35, C78: detailed-balance junctions. *)
From Coq Require Import Reals List Arith Bool Lia Lra Psatz.
From Verif Require Import Common PhysConst InterpModel InterpProps NpModel DetBalModel.
Import ListNotations.
Open Scope R_scope.
Open Scope list_scope.

(** * C35 *)

(** Without a given absorptance function, for every non-negative A and positive
    gap the absorptance is in [0,1], min(A,1) for photons above the edge
    1240 nm eV and zero below it. *)
Theorem C35_absorptance_partial :
  forall j Eg A j',
    b_absorptance j = None -> b_Eg j = Some Eg -> b_A j = Some A -> 0 < Eg -> 0 <= A ->
    absorptance_db j = Ok j' ->
    exists f, b_absorptance j' = Some f /\
      (forall wl, 0 <= f wl <= 1) /\
      (forall wl, wl * 10 ^ 9 * Eg < 1240 -> f wl = if Rlt_dec A 1 then A else 1) /\
      (forall wl, 1240 <= wl * 10 ^ 9 * Eg -> f wl = 0).
Proof.
  intros j Eg A j' Ha HE HA HEg HA0 H. unfold absorptance_db in H. rewrite Ha, HE, HA in H. cbn [attr bindR] in H.
  destruct (Req_EM_T Eg 0); [lra|]. injection H as <-. exists (top_hat (Rmin A 1) (1240 / Eg / 10 ^ 9)). split; [reflexivity|].
  pose proof (pow10_pos 9) as H9. set (t9 := 10 ^ 9) in *. clearbody t9.
  assert (Hedge : forall wl, wl < 1240 / Eg / t9 <-> wl * t9 * Eg < 1240).
  { intros wl. assert (E : 1240 = (1240 / Eg / t9) * t9 * Eg) by (field; lra). rewrite E at 2.
    set (g := 1240 / Eg / t9). split; intros Hl.
    - apply Rmult_lt_compat_r; [assumption|]. now apply Rmult_lt_compat_r.
    - apply (Rmult_lt_reg_r t9); [assumption|]. now apply (Rmult_lt_reg_r Eg). }
  assert (Hm : 0 <= Rmin A 1 <= 1) by (split; [apply Rmin_glb; lra|apply Rmin_r]).
  split; [|split].
  - intros wl. unfold top_hat. destruct (Rlt_dec _ _); lra.
  - intros wl Hl. unfold top_hat. destruct (Rlt_dec wl _) as [_|Hn]; [|exfalso; apply Hn, Hedge, Hl].
    unfold Rmin. destruct (Rle_dec A 1), (Rlt_dec A 1); lra.
  - intros wl Hl. unfold top_hat. destruct (Rlt_dec wl _) as [Hn|_]; [|lra]. apply Hedge in Hn. lra.
Qed.
Print Assumptions C35_absorptance_partial.

Definition ex_db : db_junction :=
  {| b_Eg := Some (14 / 10); b_n := Some (35 / 10); b_A := Some (8 / 10); b_Rsh := None; b_width := None;
     b_absorptance := None; b_eqe := None; b_absorbed := None; b_reflected := Some (fun _ => 0); b_j01 := None |}.
Example C35_case : exists j', absorptance_db ex_db = Ok j' /\ exists j'', qe_db ex_db [1; 2] = Ok j''.
Proof.
  unfold qe_db, absorptance_db. cbn [ex_db b_absorptance b_Eg b_A attr bindR].
  destruct (Req_EM_T (14 / 10) 0); [lra|]. eexists. split; [reflexivity|].
  cbn [bindR with_absorptance b_absorptance b_width attr ex_db]. eexists. reflexivity.
Qed.

(** The edge is at 1240 nm eV, not at hc/q: photons with slightly less than the gap
    energy are absorbed. *)
Theorem C35_edge_refuted :
  exists j j' f wl, absorptance_db j = Ok j' /\ b_absorptance j' = Some f /\
    exists Eg, b_Eg j = Some Eg /\ 0 < wl /\ h * c / wl < q * Eg /\ f wl > 0.
Proof.
  exists {| b_Eg := Some 1; b_n := None; b_A := Some 1; b_Rsh := None; b_width := None;
     b_absorptance := None; b_eqe := None; b_absorbed := None; b_reflected := None; b_j01 := None |}.
  unfold absorptance_db. cbn [b_absorptance b_Eg b_A attr bindR]. destruct (Req_EM_T 1 0); [lra|].
  do 2 eexists. exists (12399 / 10 ^ 10). split; [reflexivity|]. split; [reflexivity|]. exists 1. split; [reflexivity|].
  split; [lra|]. split.
  - with_strategy transparent [h c q] unfold h, c, q. lra.
  - unfold top_hat. destruct (Rlt_dec _ _) as [_|Hn]; [|exfalso; apply Hn; lra]. rewrite Rmin_left; lra.
Qed.
Print Assumptions C35_edge_refuted.

(** A negative A is not rejected. *)
Theorem C35_negative_refuted :
  exists j j' f wl, absorptance_db j = Ok j' /\ b_absorptance j' = Some f /\ f wl < 0.
Proof.
  exists {| b_Eg := Some 1; b_n := None; b_A := Some (-1); b_Rsh := None; b_width := None;
     b_absorptance := None; b_eqe := None; b_absorbed := None; b_reflected := None; b_j01 := None |}.
  unfold absorptance_db. cbn [b_absorptance b_Eg b_A attr bindR]. destruct (Req_EM_T 1 0); [lra|].
  do 2 eexists. exists (/ 10 ^ 9). split; [reflexivity|]. split; [reflexivity|].
  unfold top_hat. destruct (Rlt_dec _ _) as [_|Hn]; [|exfalso; apply Hn; lra]. rewrite Rmin_left; lra.
Qed.
Print Assumptions C35_negative_refuted.

Lemma linspace_length a b n : length (linspace a b n) = n.
Proof. unfold linspace. now rewrite map_length, seq_length. Qed.
Lemma linspace_nth a b n i : (i < n)%nat -> nth i (linspace a b n) 0 = a + (b - a) * INR i / INR (n - 1).
Proof.
  intros H. unfold linspace. set (f := fun i => a + (b - a) * INR i / INR (n - 1)).
  rewrite (nth_indep _ _ (f 0%nat)) by now rewrite map_length, seq_length. rewrite map_nth, seq_nth by assumption. reflexivity.
Qed.
Lemma linspace_nondecreasing a b n : a <= b -> nondecreasing (linspace a b n).
Proof.
  intros Hab i j Hij. rewrite linspace_length in Hij. rewrite !linspace_nth by lia.
  assert (INR i <= INR j) by (apply le_INR; lia).
  destruct (Nat.eq_dec n 1) as [->|Hn].
  - assert (i = 0%nat) by lia. assert (j = 0%nat) by lia. subst. lra.
  - assert (0 < INR (n - 1)) by (apply lt_0_INR; lia). unfold Rdiv.
    assert (0 < / INR (n - 1)) by now apply Rinv_0_lt_compat.
    apply Rplus_le_compat_l. apply Rmult_le_compat_r; [lra|]. apply Rmult_le_compat_l; lra.
Qed.

(** The quantum efficiency: the absorptance when no generation profile is known,
    else the absorbed fraction; in that case it is non-negative, zero outside the
    wavelength range and never above the largest absorbed fraction. *)
Theorem C35_qe :
  forall j wl j', qe_db j wl = Ok j' ->
    exists iqe eqe, b_absorptance j' = Some iqe /\ b_eqe j' = Some eqe /\
    ((b_width j = None \/ b_absorbed j = None) -> forall l, eqe l = iqe l) /\
    (forall w prof, b_width j = Some w -> b_absorbed j = Some prof -> increasing wl -> (2 <= length wl)%nat -> 0 <= w ->
      let fraction l := np_trapz (map (fun z => prof z l) (linspace 0 w depth_points)) (linspace 0 w depth_points) in
      (forall l, In l wl -> eqe l = fraction l) /\
      (forall l, l < at_ wl 0 \/ at_ wl (length wl - 1) < l -> eqe l = 0) /\
      ((forall z l, 0 <= prof z l) ->
        (forall l, 0 <= eqe l) /\
        forall m, 0 <= m -> (forall l, In l wl -> fraction l <= m) -> forall l, eqe l <= m)).
Proof.
  intros j wl j' H. unfold qe_db in H.
  destruct (absorptance_db j) as [j1|] eqn:E1; [|discriminate]. cbn [bindR] in H.
  assert (Hf : b_width j1 = b_width j /\ b_absorbed j1 = b_absorbed j).
  { unfold absorptance_db in E1. destruct (b_absorptance j); [injection E1 as <-; auto|].
    destruct (b_Eg j); [|discriminate]. cbn [attr bindR] in E1. destruct (Req_EM_T _ _); [discriminate|].
    destruct (b_A j); [|discriminate]. injection E1 as <-. auto. }
  destruct Hf as [Hw Hp]. rewrite Hw, Hp in H.
  destruct (b_absorptance j1) as [iqe|] eqn:Ei; [|discriminate]. cbn [attr bindR] in H.
  destruct (b_width j) as [w|] eqn:Ew; [destruct (b_absorbed j) as [prof|] eqn:Ep|].
  - injection H as <-. exists iqe. eexists. split; [exact Ei|]. split; [reflexivity|]. split; [intros [E|E]; discriminate|].
    intros w' prof' E E'. injection E as <-. injection E' as <-. intros Hinc Hl Hw0 fraction.
    set (z := linspace 0 w depth_points).
    set (tab := map (fun l => np_trapz (map (fun x => prof x l) z) z) wl).
    assert (Htl : length tab = length wl) by apply map_length.
    assert (Hnth : forall i, (i < length wl)%nat -> at_ tab i = fraction (at_ wl i)).
    { intros i Hi. unfold tab. rewrite (nth_indep _ _ (fraction 0)) by now rewrite map_length.
      apply (map_nth fraction). }
    split; [|split].
    + intros l Hin. destruct (In_nth _ _ 0 Hin) as (i & Hi & <-). rewrite scipy_interp_node by assumption. now apply Hnth.
    + intros l [Ho|Ho]; unfold scipy_interp; destruct (Rlt_dec _ _); try reflexivity; try lra. destruct (Rlt_dec _ _); [reflexivity|lra].
    + intros Hpos.
      assert (Hfr : forall l, 0 <= fraction l).
      { intros l. unfold fraction. fold z. apply np_trapz_nonneg; [now rewrite map_length| |apply linspace_nondecreasing; lra].
        intros v Hv. apply in_map_iff in Hv as (x & <- & _). apply Hpos. }
      split.
      * intros l. set (M := fold_right Rmax 0 tab).
        assert (HM : forall i, (i < length tab)%nat -> 0 <= at_ tab i <= M).
        { intros i Hi. split; [rewrite Hnth by lia; apply Hfr|]. unfold M. clear - Hi. revert i Hi. induction tab as [|a t IH]; intros i Hi; simpl in *; [lia|].
          destruct i; [apply Rmax_l|]. eapply Rle_trans; [apply IH; lia|apply Rmax_r]. }
        assert (HM0 : 0 <= M). { pose proof (HM 0%nat ltac:(lia)). lra. }
        apply (scipy_interp_bounds wl tab 0 0 l 0 M); auto; lra.
      * intros m Hm Hle l. apply (scipy_interp_bounds wl tab 0 0 l 0 m); auto; try lra.
        intros i Hi. rewrite Hnth by lia. split; [apply Hfr|]. apply Hle, nth_In. lia.
  - injection H as <-. exists iqe, iqe. split; [exact Ei|]. split; [reflexivity|]. split; [reflexivity|]. intros w' prof' _ E. discriminate.
  - injection H as <-. exists iqe, iqe. split; [exact Ei|]. split; [reflexivity|]. split; [reflexivity|]. intros w' prof' E. discriminate.
Qed.
Print Assumptions C35_qe.

(** * C78 *)

Lemma Rn_range r : 0 <= r -> 0 <= Rn r < 1.
Proof. intros H. unfold Rn. split; [apply Rmin_glb; lra|]. apply Rle_lt_trans with (999999 / 10 ^ 6); [apply Rmin_l|lra]. Qed.
Lemma neff_ge1 r : 0 <= r -> 1 <= neff r.
Proof.
  intros H. destruct (Rn_range r H) as [H0 H1]. unfold neff. pose proof (sqrt_pos (Rn r)).
  assert (sqrt (Rn r) < 1) by (rewrite <- sqrt_1; apply sqrt_lt_1; lra).
  apply (Rmult_le_reg_r (1 - sqrt (Rn r))); [lra|]. unfold Rdiv. rewrite Rmult_assoc, Rinv_l; lra.
Qed.
Lemma fresnel_range x y : 0 <= x -> 0 <= y -> 0 < x + y -> 0 <= ((x - y) / (x + y)) ^ 2 <= 1.
Proof.
  intros Hx Hy Hs. split; [apply pow2_ge_0|].
  replace (((x - y) / (x + y)) ^ 2) with ((x - y) ^ 2 / (x + y) ^ 2) by (field; lra).
  apply (Rmult_le_reg_r ((x + y) ^ 2)); [apply pow_lt; lra|]. unfold Rdiv. rewrite Rmult_assoc, Rinv_l; [nra|].
  apply pow_nonzero. lra.
Qed.
Lemma internal_R_range r t : 0 <= r -> 0 < t -> 0 <= internal_R r t <= 1.
Proof.
  intros Hr Ht. unfold internal_R. destruct (Rlt_dec _ _); [|lra].
  pose proof (neff_ge1 r Hr). set (n := neff r) in *. set (ci := sqrt _). assert (0 <= ci) by apply sqrt_pos.
  assert (0 < n * t) by (apply Rmult_lt_0_compat; lra). assert (0 <= n * ci) by (apply Rmult_le_pos; lra).
  pose proof (fresnel_range ci (n * t) ltac:(lra) ltac:(lra) ltac:(lra)).
  pose proof (fresnel_range t (n * ci) ltac:(lra) ltac:(lra) ltac:(lra)). lra.
Qed.
Lemma rpow_range b e : 0 <= b <= 1 -> 0 < e -> 0 <= rpow b e <= 1.
Proof.
  intros Hb He. unfold rpow. destruct (Req_EM_T b 0); [lra|]. unfold Rpower. split; [left; apply exp_pos|].
  assert (Hln : ln b <= 0).
  { rewrite <- ln_1. destruct (Rle_lt_or_eq_dec b 1 (proj2 Hb)) as [Hlt| ->]; [left; apply ln_increasing; lra|lra]. }
  assert (Hx : e * ln b <= 0) by nra.
  rewrite <- exp_0. destruct (Rle_lt_or_eq_dec _ _ Hx) as [Hlt|E]; [left; now apply exp_increasing|rewrite E; lra].
Qed.

Lemma fold_nonneg (f : R -> R) l : forall a, 0 <= a -> (forall t, In t l -> 0 <= f t) ->
  0 <= fold_left (fun acc t => acc + f t) l a.
Proof.
  induction l as [|t l IH]; intros a Ha H; cbn; [assumption|]. apply IH; [|intros; apply H; now right].
  assert (0 <= f t) by (apply H; now left). lra.
Qed.
Lemma fold_zero (f : R -> R) l : (forall t, In t l -> f t = 0) -> fold_left (fun acc t => acc + f t) l 0 = 0.
Proof.
  induction l as [|t l IH]; intros H; cbn; [reflexivity|]. rewrite (H t) by now left. rewrite Rplus_0_l. apply IH. intros; apply H; now right.
Qed.

(** The emission weight of a wavelength is non-negative, and zero where nothing is
    absorbed (no emission without absorption). *)
Lemma surface_integral_range steps r a : (2 <= steps)%nat -> 0 <= r -> 0 <= a <= 1 ->
  0 <= surface_integral steps r a /\ (a = 0 -> surface_integral steps r a = 0).
Proof.
  intros Hs Hr Ha. unfold surface_integral. set (ct := linspace (/ 1000) 1 steps). set (inner := map _ (seq 1 (steps - 2))).
  assert (Hct : forall i, (i < steps)%nat -> 0 < nth i ct 0).
  { intros i Hi. unfold ct. rewrite linspace_nth by assumption.
    assert (0 < INR (steps - 1)) by (apply lt_0_INR; lia). pose proof (pos_INR i).
    assert (0 <= (1 - / 1000) * INR i / INR (steps - 1)).
    { apply Rmult_le_pos; [apply Rmult_le_pos; lra|]. left. now apply Rinv_0_lt_compat. }
    lra. }
  assert (Hin : forall t, In t inner -> 0 < t).
  { intros t Ht. unfold inner in Ht. apply in_map_iff in Ht as (i & <- & Hi). apply in_seq in Hi. apply Hct. lia. }
  assert (HR1 := internal_R_range r (nth (steps - 1) ct 0) Hr (Hct (steps - 1)%nat ltac:(lia))).
  set (R1 := internal_R r (nth (steps - 1) ct 0)) in *.
  pose proof PI_RGT_0. assert (0 <= INR steps) by apply pos_INR.
  assert (Hp : forall t, In t inner -> 0 <= rpow (1 - a) (1 / t) <= 1 /\ 0 <= internal_R r t <= 1).
  { intros t Ht. specialize (Hin t Ht). split; [apply rpow_range; [lra|]|now apply internal_R_range].
    apply Rdiv_lt_0_compat; lra. }
  split.
  - apply Rmult_le_pos; [lra|].
    assert (0 < / (INR steps + 1)) by (apply Rinv_0_lt_compat; lra).
    apply Rplus_le_le_0_compat; (apply Rmult_le_pos; [|lra]); apply fold_nonneg.
    + assert (0 <= R1 * (1 - a)) by (apply Rmult_le_pos; lra). assert (0 <= 1 - (1 - a)) by lra.
      assert (0 <= (1 + R1 * (1 - a)) * (1 - (1 - a))) by (apply Rmult_le_pos; lra). lra.
    + intros t Ht. destruct (Hp t Ht) as [P1 P2]. specialize (Hin t Ht).
      assert (0 <= internal_R r t * rpow (1 - a) (1 / t)) by (apply Rmult_le_pos; lra).
      apply Rmult_le_pos; [apply Rmult_le_pos; lra|lra].
    + assert (0 <= (1 - R1) * (1 - (1 - a))) by (apply Rmult_le_pos; lra). lra.
    + intros t Ht. destruct (Hp t Ht) as [P1 P2]. specialize (Hin t Ht). apply Rmult_le_pos; [apply Rmult_le_pos; lra|lra].
  - intros ->.
    assert (E1 : forall t, rpow (1 - 0) (1 / t) = 1).
    { intros t. unfold rpow. destruct (Req_EM_T (1 - 0) 0); [lra|]. unfold Rpower. replace (1 - 0) with 1 by ring. rewrite ln_1, Rmult_0_r. apply exp_0. }
    replace (1 / 2 * (1 + R1 * (1 - 0)) * (1 - (1 - 0))) with 0 by ring.
    replace (1 / 2 * (1 - R1) * (1 - (1 - 0))) with 0 by ring.
    rewrite (fold_zero (fun t => (1 + internal_R r t * rpow (1 - 0) (1 / t)) * (1 - rpow (1 - 0) (1 / t)) * t)).
    2:{ intros t _. rewrite E1. ring. }
    rewrite (fold_zero (fun t => (1 - internal_R r t) * (1 - rpow (1 - 0) (1 / t)) * t)).
    2:{ intros t _. rewrite E1. ring. }
    unfold Rdiv. ring.
Qed.

(** The detailed-balance curve (Boltzmann mode) of every junction with physical
    optics: the emission is non-negative, the current strictly increases with
    voltage, and when cell and ambient are at one temperature the dark current at
    zero bias is zero and the light current is minus the photocurrent. *)
Theorem C78_detailed_balance_curve :
  forall j T Ta light steps wl ph volts j' cur absorb refl,
    iv_db j T Ta light steps wl ph volts = Ok (j', cur) ->
    b_absorptance j' = Some absorb -> b_reflected j' = Some refl ->
    0 < T -> (2 <= steps)%nat -> nondecreasing wl -> (forall l, In l wl -> 0 < l) ->
    (forall l, In l wl -> 0 <= refl l) -> (forall l, In l wl -> 0 <= absorb l <= 1) ->
    (forall r, b_Rsh j = Some r -> 0 < r) ->
    length cur = length volts /\
    (exists J0 eqe, b_j01 j' = Some J0 /\ b_eqe j' = Some eqe /\ 0 <= J0 /\
      (forall i k, (i < length volts)%nat -> (k < length volts)%nat -> at_ volts i < at_ volts k -> at_ cur i < at_ cur k) /\
      (forall i, (i < length volts)%nat -> at_ volts i = 0 -> T = Ta ->
         at_ cur i = - (if light then q * np_trapz (map (fun p => fst p * snd p) (combine (map eqe wl) ph)) wl else 0)) /\
      ((forall l, In l wl -> absorb l = 0) -> J0 = 0)).
Proof.
  intros j T Ta light steps wl ph volts j' cur absorb refl H Ha Hr HT Hs Hwl Hpos Hrefl Habs Hsh.
  unfold iv_db in H. destruct (b_Eg j); [|discriminate]. cbn [attr bindR] in H.
  destruct (b_n j) as [n|]; [|discriminate]. cbn [attr bindR] in H.
  destruct (match b_eqe j with Some _ => Ok j | None => qe_db j wl end) as [j1|] eqn:E1; [|discriminate]. cbn [bindR] in H.
  destruct (b_eqe j1) as [eqe|] eqn:Ee; [|discriminate]. cbn [attr bindR] in H.
  destruct (b_reflected j1) as [refl1|] eqn:Er; [|discriminate]. cbn [attr bindR] in H.
  destruct (b_absorptance j1) as [ab1|] eqn:Eab; [|discriminate]. cbn [attr bindR] in H.
  injection H as <- <-. cbn in Ha, Hr. rewrite Eab in Ha. injection Ha as ->. rewrite Er in Hr. injection Hr as ->.
  set (As := map (fun l => surface_integral steps (refl l) (absorb l)) wl).
  assert (HRsh : b_Rsh j1 = b_Rsh j).
  { destruct (b_eqe j); [injection E1 as <-; reflexivity|]. unfold qe_db in E1.
    assert (Hx : forall a, absorptance_db j = Ok a -> b_Rsh a = b_Rsh j).
    { intros a Ea. unfold absorptance_db in Ea. destruct (b_absorptance j); [injection Ea as <-; auto|].
      destruct (b_Eg j); [|discriminate]. cbn [attr bindR] in Ea. destruct (Req_EM_T _ _); [discriminate|].
      destruct (b_A j); [|discriminate]. injection Ea as <-. auto. }
    destruct (absorptance_db j) as [a|]; [|discriminate]. cbn [bindR] in E1. specialize (Hx a eq_refl).
    destruct (b_absorptance a); [|discriminate]. cbn [attr bindR] in E1.
    destruct (b_width a); [destruct (b_absorbed a)|]; injection E1 as <-; exact Hx. }
  set (Rsh := match b_Rsh j1 with Some r => Rmin r (10 ^ 14) | None => 10 ^ 14 end).
  assert (HR : 0 < Rsh).
  { unfold Rsh. rewrite HRsh. destruct (b_Rsh j) as [rs0|]; [|apply pow10_pos]. apply Rmin_glb_lt; [now apply Hsh|apply pow10_pos]. }
  pose proof q_pos. pose proof kb_pos. pose proof c_pos.
  assert (Hterm : forall p T0, In p (combine As wl) -> 0 <= 2 * q * n ^ 2 * c * (fst p / snd p ^ 4) * exp (- (h * c / snd p) / (kb * T0)) /\
       ((forall l, In l wl -> absorb l = 0) -> 2 * q * n ^ 2 * c * (fst p / snd p ^ 4) * exp (- (h * c / snd p) / (kb * T0)) = 0)).
  { intros [A l] T0 Hp. assert (Hl : In l wl) by now apply in_combine_r in Hp.
    assert (HA : exists l', In l' wl /\ A = surface_integral steps (refl l') (absorb l')).
    { apply in_combine_l in Hp. apply in_map_iff in Hp as (l' & <- & Hl'). eauto. }
    destruct HA as (l' & Hl' & ->). cbn [fst snd].
    destruct (surface_integral_range steps (refl l') (absorb l') Hs (Hrefl l' Hl') (Habs l' Hl')) as [A0 A1].
    specialize (Hpos l Hl). split.
    - apply Rmult_le_pos; [|left; apply exp_pos]. apply Rmult_le_pos.
      + apply Rmult_le_pos; [|lra]. apply Rmult_le_pos; [lra|apply pow2_ge_0].
      + apply Rmult_le_pos; [assumption|]. left. apply Rinv_0_lt_compat. now apply pow_lt.
    - intros Hz. rewrite A1 by now apply Hz. unfold Rdiv. ring. }
  assert (Hcl : length (map (fun p => 2 * q * n ^ 2 * c * (fst p / snd p ^ 4) * exp (- (h * c / snd p) / (kb * T))) (combine As wl)) = length wl).
  { rewrite map_length, combine_length. unfold As. rewrite map_length. lia. }
  assert (HJ0 : 0 <= emission n As wl T).
  { unfold emission. apply np_trapz_nonneg; auto. intros v Hv. apply in_map_iff in Hv as (p & <- & Hp). now apply Hterm. }
  set (jsc := if light then _ else _).
  set (f := fun v => emission n As wl T * exp (q * v / (kb * T)) + v / Rsh - jsc).
  assert (Hnth : forall i, (i < length volts)%nat -> at_ (map f volts) i = f (at_ volts i)).
  { intros i Hi. rewrite (nth_indep _ _ (f 0)) by now rewrite map_length. apply map_nth. }
  split; [apply map_length|]. exists (emission n As wl T), eqe. cbn. split; [reflexivity|]. split; [assumption|]. split; [assumption|].
  split; [|split].
  - intros i k Hi Hk Hik. fold As Rsh jsc f. rewrite !Hnth by assumption. unfold f.
    set (v := at_ volts i) in *. set (w := at_ volts k) in *.
    assert (exp (q * v / (kb * T)) <= exp (q * w / (kb * T))).
    { left. apply exp_increasing. unfold Rdiv. apply Rmult_lt_compat_r; [apply Rinv_0_lt_compat; now apply Rmult_lt_0_compat|].
      now apply Rmult_lt_compat_l. }
    assert (emission n As wl T * exp (q * v / (kb * T)) <= emission n As wl T * exp (q * w / (kb * T))) by now apply Rmult_le_compat_l.
    assert (v / Rsh < w / Rsh) by (apply Rmult_lt_compat_r; [now apply Rinv_0_lt_compat|assumption]). lra.
  - intros i Hi E ET. fold As Rsh jsc f. rewrite Hnth by assumption. unfold f. rewrite E. subst Ta.
    replace (q * 0 / (kb * T)) with 0 by (unfold Rdiv; ring). unfold jsc.
    replace (q * 0 / (kb * T)) with 0 by (unfold Rdiv; ring). rewrite exp_0. unfold Rdiv. destruct light; ring.
  - intros Hz. unfold emission.
    assert (Hall : forall v, In v (map (fun p => 2 * q * n ^ 2 * c * (fst p / snd p ^ 4) * exp (- (h * c / snd p) / (kb * T))) (combine As wl)) -> v = 0).
    { intros v Hv. apply in_map_iff in Hv as (p & <- & Hp). now apply (Hterm p T Hp). }
    revert Hall. generalize (map (fun p => 2 * q * n ^ 2 * c * (fst p / snd p ^ 4) * exp (- (h * c / snd p) / (kb * T))) (combine As wl)).
    clear. intros y Hy. revert wl. induction y as [|a [|b y] IH]; intros [|x [|x' wl]]; try reflexivity.
    rewrite np_trapz_cons, IH by (intros v Hv; apply Hy; now right).
    rewrite (Hy a) by now left. rewrite (Hy b) by (right; now left). lra.
Qed.
Print Assumptions C78_detailed_balance_curve.

Example C78_case :
  exists r, iv_db ex_db 300 300 true 20 [1; 2] [3; 4] [0; 1] = Ok r.
Proof.
  unfold iv_db, qe_db, absorptance_db. cbn [b_Eg b_n b_A b_eqe b_absorptance b_width b_absorbed b_reflected attr bindR ex_db].
  destruct (Req_EM_T (14 / 10) 0); [lra|]. cbn [b_Eg b_n b_A b_eqe b_absorptance b_width b_absorbed b_reflected attr bindR with_absorptance with_eqe].
  eexists. reflexivity.
Qed.

(** An externally given quantum efficiency alone is not enough, although it is
    documented as sufficient: without an absorptance the solver raises. *)
Theorem C78_external_eqe_refuted :
  exists j Eg n A eqe refl, b_Eg j = Some Eg /\ b_n j = Some n /\ b_A j = Some A /\ b_eqe j = Some eqe /\ b_reflected j = Some refl /\
    forall T Ta light steps wl ph volts, iv_db j T Ta light steps wl ph volts = Err AttributeError.
Proof.
  exists {| b_Eg := Some 1; b_n := Some 3; b_A := Some 1; b_Rsh := None; b_width := None;
     b_absorptance := None; b_eqe := Some (fun _ => 1); b_absorbed := None; b_reflected := Some (fun _ => 0); b_j01 := None |}.
  do 5 eexists. do 5 (split; [reflexivity|]). intros. reflexivity.
Qed.
Print Assumptions C78_external_eqe_refuted.

(** Two temperatures: the cell emits at its own temperature and receives the thermal
    light of the ambient, which is what it would emit at zero bias at the ambient
    temperature. *)
Theorem C78_two_temperatures :
  forall j T Ta light steps wl ph volts j' cur ja cura,
    iv_db j T Ta light steps wl ph volts = Ok (j', cur) ->
    iv_db j Ta Ta light steps wl ph volts = Ok (ja, cura) ->
    exists J0 J0a eqe, b_j01 j' = Some J0 /\ b_j01 ja = Some J0a /\ b_eqe j' = Some eqe /\
      forall i, (i < length volts)%nat ->
        at_ cur i = J0 * exp (q * at_ volts i / (kb * T)) - J0a
                    + at_ volts i / (match b_Rsh j' with Some r => Rmin r (10 ^ 14) | None => 10 ^ 14 end)
                    - (if light then q * np_trapz (map (fun p => fst p * snd p) (combine (map eqe wl) ph)) wl else 0).
Proof.
  intros j T Ta light steps wl ph volts j' cur ja cura H Ha. unfold iv_db in H, Ha.
  destruct (attr (b_Eg j)) as [Eg|]; [|discriminate]. cbn [bindR] in H, Ha.
  destruct (attr (b_n j)) as [n|]; [|discriminate]. cbn [bindR] in H, Ha.
  destruct (match b_eqe j with Some _ => Ok j | None => qe_db j wl end) as [j1|]; [|discriminate]. cbn [bindR] in H, Ha.
  destruct (b_eqe j1) as [eqe|] eqn:Eq; [|discriminate]. cbn [attr bindR] in H, Ha.
  destruct (b_reflected j1) as [refl|]; [|discriminate]. cbn [attr bindR] in H, Ha.
  destruct (b_absorptance j1) as [absorb|]; [|discriminate]. cbn [attr bindR] in H, Ha. cbv zeta in H, Ha.
  set (As := map (fun l => surface_integral steps (refl l) (absorb l)) wl) in *.
  set (Rsh := match b_Rsh j1 with Some r => Rmin r (10 ^ 14) | None => 10 ^ 14 end) in *.
  injection H as <- <-. injection Ha as <- _. exists (emission n As wl T), (emission n As wl Ta), eqe.
  split; [reflexivity|]. split; [reflexivity|]. split; [exact Eq|]. intros i Hi. cbn [with_j01 b_Rsh]. fold Rsh.
  match goal with |- at_ (map ?f volts) i = _ => rewrite (nth_indep (map f volts) 0 (f 0)) by (rewrite map_length; exact Hi); rewrite (map_nth f) end.
  replace (q * 0 / (kb * Ta)) with 0 by (unfold Rdiv; ring). rewrite exp_0.
  destruct light; ring.
Qed.

(** Internal reflection: at normal incidence it is the reflectance of the front (at most
    0.999999); beyond the critical angle, where Snell's law has no solution, it is total;
    within the escape cone it is the mean of the two Fresnel reflectances, for the angle
    of refraction of Snell's law. *)
Theorem C78_internal_reflection :
  forall r, 0 <= r ->
    internal_R r 1 = Rmin (999999 / 10 ^ 6) r /\
    exists n, 1 <= n /\ ((n - 1) / (n + 1)) ^ 2 = Rmin (999999 / 10 ^ 6) r /\
      forall t, 0 <= t <= 1 ->
        (1 <= n ^ 2 * (1 - t ^ 2) -> internal_R r t = 1) /\
        (n ^ 2 * (1 - t ^ 2) < 1 -> exists ti, 0 < ti <= 1 /\ n ^ 2 * (1 - t ^ 2) = 1 - ti ^ 2 /\
           internal_R r t = (((ti - n * t) / (ti + n * t)) ^ 2 + ((t - n * ti) / (t + n * ti)) ^ 2) / 2).
Proof.
  intros r Hr. assert (Hn := neff_ge1 r Hr). set (n := neff r) in *.
  assert (HRn : 0 <= Rn r < 1) by (unfold Rn, Rmin; destruct (Rle_dec _ _); lra).
  set (s := sqrt (Rn r)). assert (Hs0 : 0 <= s) by apply sqrt_pos. assert (Hss : s * s = Rn r) by (apply sqrt_sqrt; lra).
  assert (Hs1 : s < 1) by nra.
  assert (En : n = (1 + s) / (1 - s)) by reflexivity.
  assert (Enr : ((n - 1) / (n + 1)) ^ 2 = Rn r).
  { rewrite <- Hss, En. field. lra. }
  assert (Hcos : forall t, 0 <= t <= 1 -> cos_tc r < t <-> n ^ 2 * (1 - t ^ 2) < 1).
  { intros t Ht. unfold cos_tc. fold n. assert (0 < n ^ 2) by nra. assert (H1 : / n ^ 2 <= 1).
    { rewrite <- Rinv_1. apply Rinv_le_contravar; nra. }
    assert (E : n ^ 2 * / n ^ 2 = 1) by (field; nra).
    split; intros Hc.
    - assert (0 <= 1 - 1 / n ^ 2) by (unfold Rdiv; lra). assert (Hq := sqrt_sqrt _ H0). pose proof (sqrt_pos (1 - 1 / n ^ 2)).
      assert (1 - 1 / n ^ 2 < t ^ 2) by nra. unfold Rdiv in *. nra.
    - rewrite <- (sqrt_pow2 t) by lra. apply sqrt_lt_1; unfold Rdiv; nra. }
  assert (Hin : forall t, 0 <= t <= 1 ->
        (1 <= n ^ 2 * (1 - t ^ 2) -> internal_R r t = 1) /\
        (n ^ 2 * (1 - t ^ 2) < 1 -> exists ti, 0 < ti <= 1 /\ n ^ 2 * (1 - t ^ 2) = 1 - ti ^ 2 /\
           internal_R r t = (((ti - n * t) / (ti + n * t)) ^ 2 + ((t - n * ti) / (t + n * ti)) ^ 2) / 2)).
  { intros t Ht. split; intros Hc; unfold internal_R; destruct (Rlt_dec (cos_tc r) t) as [K|K].
    - apply Hcos in K; [lra|assumption].
    - lra.
    - fold n. exists (sqrt (1 - n ^ 2 * (1 - t ^ 2))). split; [split|split; [|reflexivity]].
      + apply sqrt_lt_R0. lra.
      + apply Rle_trans with (sqrt 1); [apply sqrt_le_1_alt|rewrite sqrt_1; lra]. assert (0 <= 1 - t ^ 2) by nra. assert (0 <= n ^ 2) by nra. nra.
      + rewrite pow2_sqrt by lra. ring.
    - elim K. now apply Hcos. }
  split.
  - destruct (Hin 1 ltac:(lra)) as [_ H]. destruct (H ltac:(lra)) as (ti & Hti & E & ->).
    assert (ti = 1) as -> by nra. rewrite !Rmult_1_r. fold (Rn r). rewrite <- Enr. field. lra.
  - exists n. split; [assumption|]. split; [exact Enr|exact Hin].
Qed.
Example C78_reflection_case : internal_R (1 / 4) 1 = 1 / 4 /\ internal_R (1 / 4) (1 / 2) = 1.
Proof.
  destruct (C78_internal_reflection (1 / 4) ltac:(lra)) as (H1 & n & Hn & En & Hin). rewrite Rmin_right in H1, En by lra. split; [exact H1|].
  apply Hin; [lra|]. assert ((n - 1) / (n + 1) = 1 / 2).
  { assert (0 <= (n - 1) / (n + 1)) by (apply Rmult_le_pos; [lra|left; apply Rinv_0_lt_compat; lra]). nra. }
  assert (n = 3).
  { apply Rmult_eq_compat_r with (r := n + 1) in H. unfold Rdiv in H. rewrite Rmult_assoc, Rinv_l in H; lra. }
  subst. lra.
Qed.
Example C78_two_temperatures_case :
  exists r ra, iv_db ex_db 300 280 true 20 [1; 2] [3; 4] [0; 1] = Ok r /\ iv_db ex_db 280 280 true 20 [1; 2] [3; 4] [0; 1] = Ok ra.
Proof.
  unfold iv_db, qe_db, absorptance_db. cbn [b_Eg b_n b_A b_eqe b_absorptance b_width b_absorbed b_reflected attr bindR ex_db].
  destruct (Req_EM_T (14 / 10) 0); [lra|]. cbn [b_Eg b_n b_A b_eqe b_absorptance b_width b_absorbed b_reflected attr bindR with_absorptance with_eqe].
  do 2 eexists. split; reflexivity.
Qed.

(** Properties C31, C32, C33, C75, C76: the two-diode solver and its helpers. *)
From Coq Require Import Reals List Bool Lra Lia Psatz.
From Coquelicot Require Import Coquelicot.
From Coq Require Import List.
From Verif Require Import Common PhysConst DiodeModel.
Import ListNotations.
Open Scope R_scope.
Open Scope list_scope.

(** * Specification *)

(** Physically meaningful attributes: positive where present. *)
Definition pos (o : option R) : Prop := forall x, o = Some x -> 0 < x.
Definition nonneg (o : option R) : Prop := forall x, o = Some x -> 0 <= x.
Definition physical (d : diode) : Prop :=
  pos (d_Rsh d) /\ pos (d_n1 d) /\ pos (d_n2 d) /\ nonneg (d_j01 d) /\ nonneg (d_j02 d) /\ pos (d_Tref d).
(** The junction is described by saturation currents, not by an efficiency. *)
Definition plain (d : diode) : Prop := d_reff d = None \/ d_jref d = None.

(** The photocurrent a light measurement should show: the given one, else the one
    from the quantum efficiency, else zero. *)
Definition lit_photocurrent (d : diode) (source : nat) : R :=
  match d_jsc d, d_eqe d with
  | Some j, _ => j
  | None, Some e => e source
  | None, None => 0
  end.

(** * Auxiliary facts *)
Lemma exp_lt_1 x : 0 < x -> 1 < exp x.
Proof. intros H. pose proof (exp_ineq1 x ltac:(lra)). lra. Qed.

Lemma expo_mono n T a b : 0 < n -> 0 < T -> a < b -> exp (q * a / (n * kb * T)) < exp (q * b / (n * kb * T)).
Proof.
  intros Hn HT Hab. apply exp_increasing. unfold Rdiv. pose proof q_pos. pose proof kb_pos.
  apply Rmult_lt_compat_r; [apply Rinv_0_lt_compat; apply Rmult_lt_0_compat; [apply Rmult_lt_0_compat|]; assumption|].
  apply Rmult_lt_compat_l; assumption.
Qed.

Lemma two_diode_mono j01 n1 j02 n2 Rsh jsc T a b :
  0 <= j01 -> 0 < n1 -> 0 <= j02 -> 0 < n2 -> 0 < Rsh -> 0 < T -> a < b ->
  two_diode j01 n1 j02 n2 Rsh jsc T a < two_diode j01 n1 j02 n2 Rsh jsc T b.
Proof.
  intros H1 Hn1 H2 Hn2 HR HT Hab. unfold two_diode.
  pose proof (expo_mono n1 T a b Hn1 HT Hab). pose proof (expo_mono n2 T a b Hn2 HT Hab).
  assert (a / Rsh < b / Rsh) by (apply Rmult_lt_compat_r; [apply Rinv_0_lt_compat|]; assumption).
  assert (j01 * (exp (q * a / (n1 * kb * T)) - 1) <= j01 * (exp (q * b / (n1 * kb * T)) - 1)) by (apply Rmult_le_compat_l; lra).
  assert (j02 * (exp (q * a / (n2 * kb * T)) - 1) <= j02 * (exp (q * b / (n2 * kb * T)) - 1)) by (apply Rmult_le_compat_l; lra).
  lra.
Qed.

Lemma expo_0 n T : exp (q * 0 / (n * kb * T)) = 1.
Proof. replace (q * 0 / (n * kb * T)) with 0; [apply exp_0|]. unfold Rdiv. ring. Qed.

Lemma two_diode_0 j01 n1 j02 n2 Rsh jsc T : two_diode j01 n1 j02 n2 Rsh jsc T 0 = - jsc.
Proof. unfold two_diode. rewrite !expo_0. unfold Rdiv. ring. Qed.

Lemma shunt_pos d : pos (d_Rsh d) -> 0 < shunt d.
Proof.
  intros H. unfold shunt. destruct (d_Rsh d) as [r|]; [|apply pow10_pos].
  apply Rmin_glb_lt; [now apply H|apply pow10_pos].
Qed.

Lemma or_default_pos o x : pos o -> 0 < x -> 0 < or_default o x.
Proof. intros H Hx. destruct o; [now apply H|assumption]. Qed.
Lemma or_default_nonneg o x : nonneg o -> 0 <= x -> 0 <= or_default o x.
Proof. intros H Hx. destruct o; [now apply H|assumption]. Qed.

Lemma scale_nonneg Eg n T Tref j : 0 <= j -> 0 < T -> 0 < Tref ->
  0 <= scale_j01 Eg n T Tref j /\ 0 <= scale_j02 Eg n T Tref j.
Proof.
  intros Hj HT HTr. assert (0 < T / Tref) by now apply Rdiv_lt_0_compat. split.
  - unfold scale_j01. apply Rmult_le_pos; [apply Rmult_le_pos; [assumption|]|left; apply exp_pos].
    apply pow_le. lra.
  - unfold scale_j02. apply Rmult_le_pos; [apply Rmult_le_pos; [assumption|]|left; apply exp_pos].
    left. apply exp_pos.
Qed.

(** What the solver does on the plain path. *)
Lemma saturation_plain d T d1 j01 j02 : plain d -> physical d -> 0 < T ->
  saturation d T = Ok (d1, j01, j02) -> d1 = d /\ 0 <= j01 /\ 0 <= j02.
Proof.
  intros Hp (_ & _ & _ & Hj1 & Hj2 & HTr) HT H. unfold saturation in H.
  assert (H' : (let! j01 := attr (d_j01 d) in
      let j02 := or_default (d_j02 d) 0 in
      match d_Tref d with
      | Some Tref =>
          if Req_EM_T T Tref then Ok (d, j01, j02)
          else match d_Eg d with
               | None => Err AssertionError
               | Some Eg => Ok (d, scale_j01 Eg (or_default (d_n1 d) 1) T Tref j01, scale_j02 Eg (or_default (d_n2 d) 2) T Tref j02)
               end
      | None => Ok (d, j01, j02)
      end) = Ok (d1, j01, j02)).
  { destruct Hp as [E|E]; rewrite E in H; [exact H|]. destruct (d_reff d); exact H. }
  clear H. destruct (d_j01 d) as [a|] eqn:Ea; [|discriminate]. cbn [attr bindR] in H'. cbv zeta in H'.
  assert (0 <= a) by now apply Hj1. assert (0 <= or_default (d_j02 d) 0) by (apply or_default_nonneg; [assumption|lra]).
  destruct (d_Tref d) as [Tr|] eqn:ETr; [|injection H' as <- <- <-; auto].
  destruct (Req_EM_T T Tr); [injection H' as <- <- <-; auto|].
  destruct (d_Eg d) as [Eg|]; [|discriminate]. injection H' as <- <- <-.
  assert (0 < Tr) by now apply HTr.
  split; [reflexivity|]. split.
  - now apply scale_nonneg.
  - now apply scale_nonneg.
Qed.

(** * C31 *)

(** For every physical junction, temperature and illumination, the solved current
    is capped, non-decreasing, strictly increasing below the cap, and minus the
    photocurrent at zero bias. *)
Theorem C31_diode_curve :
  forall d o d' iv cur,
    plain d -> physical d -> 0 < o_T o -> iv_2diode d o = Ok (d', iv, cur) ->
    let jsc := if o_light o then lit_photocurrent d (o_source o) else 0 in
    cur = map iv (o_volt o) /\ d_jsc d' = Some jsc /\
    (forall v, iv v <= 10 ^ 8) /\
    (forall v w, v <= w -> iv v <= iv w) /\
    (forall v w, v < w -> iv v < 10 ^ 8 -> iv v < iv w) /\
    (- jsc <= 10 ^ 8 -> iv 0 = - jsc).
Proof.
  intros d o d' iv cur Hp Hph HT H jsc. unfold iv_2diode in H.
  destruct (saturation d (o_T o)) as [[[d1 j01] j02]|] eqn:Es; [|discriminate]. cbn [bindR] in H.
  destruct (saturation_plain d (o_T o) d1 j01 j02 Hp Hph HT Es) as (-> & Hj1 & Hj2).
  destruct Hph as (HR & Hn1 & Hn2 & _).
  injection H as <- <- <-.
  assert (Hjsc : photocurrent d o = jsc).
  { unfold photocurrent, jsc, lit_photocurrent. destruct (o_light o), (d_jsc d), (d_eqe d); reflexivity. }
  rewrite Hjsc.
  set (f := two_diode j01 (or_default (d_n1 d) 1) j02 (or_default (d_n2 d) 2) (shunt d) jsc (o_T o)).
  assert (Hm : forall a b, a < b -> f a < f b).
  { intros a b Hab. apply two_diode_mono; auto; [apply or_default_pos; [assumption|lra]|apply or_default_pos; [assumption|lra]|now apply shunt_pos]. }
  split; [reflexivity|]. split; [reflexivity|]. split; [intros v; apply Rmin_r|].
  split; [|split].
  - intros v w [Hvw|Hvw]; [|rewrite Hvw; lra]. specialize (Hm v w Hvw). apply Rle_min_compat_r. lra.
  - intros v w Hvw Hc. specialize (Hm v w Hvw). unfold Rmin, cap in *.
    destruct (Rle_dec (f v) (10 ^ 8)), (Rle_dec (f w) (10 ^ 8)); lra.
  - intros Hc. unfold f. rewrite two_diode_0. apply Rmin_left. exact Hc.
Qed.
Print Assumptions C31_diode_curve.

Definition ex_diode : diode :=
  {| d_Rsh := Some 100; d_n1 := None; d_n2 := Some 2; d_j01 := Some (/ 1000); d_j02 := Some (/ 100);
     d_Tref := Some 298; d_Eg := Some (14 / 10); d_jsc := Some 140; d_eqe := None;
     d_reff := None; d_jref := None; d_db := None |}.
Definition ex_opt : d_options := {| o_T := 320; o_light := true; o_source := 0; o_volt := [0; 1] |}.
Example C31_case :
  plain ex_diode /\ physical ex_diode /\ exists r, iv_2diode ex_diode ex_opt = Ok r.
Proof.
  split; [now left|]. split.
  - repeat split; intros x E; try discriminate; injection E as <-; lra.
  - unfold iv_2diode, saturation. cbn. destruct (Req_EM_T 320 298); [lra|]. eexists. reflexivity.
Qed.

(** J02 from the open-circuit voltage: if the junction has that J02 and the same
    shunt resistance of at most 1e14, the light current at Voc is zero. *)
Theorem C31_open_circuit_partial :
  forall d o d' iv cur J01 Jsc Voc R_shunt,
    plain d -> d_Tref d = None -> d_n1 d = None -> d_n2 d = None ->
    d_Rsh d = Some R_shunt -> 0 < R_shunt <= 10 ^ 14 ->
    d_j01 d = Some J01 -> d_jsc d = Some Jsc -> 0 < o_T o -> Voc <> 0 -> o_light o = true ->
    d_j02 d = Some (calculate_J02_from_Voc J01 Jsc Voc (o_T o) R_shunt) ->
    iv_2diode d o = Ok (d', iv, cur) -> iv Voc = 0.
Proof.
  intros d o d' iv cur J01 Jsc Voc Rs Hp HTr Hn1 Hn2 HRs HR HJ1 HJsc HT HV Hl HJ2 H.
  unfold iv_2diode in H. unfold saturation in H.
  assert (E : two_diode J01 1 (calculate_J02_from_Voc J01 Jsc Voc (o_T o) Rs) 2 Rs Jsc (o_T o) Voc = 0).
  { unfold two_diode, calculate_J02_from_Voc. replace (1 * kb * o_T o) with (kb * o_T o) by ring.
    assert (exp (q * Voc / (2 * kb * o_T o)) - 1 <> 0); [|field; split; [lra|assumption]].
    intros E. assert (E1 : exp (q * Voc / (2 * kb * o_T o)) = exp 0) by (rewrite exp_0; lra).
    apply exp_inv in E1. apply HV. pose proof q_pos. pose proof kb_pos.
    assert (0 < / (2 * kb * o_T o)) by (apply Rinv_0_lt_compat; apply Rmult_lt_0_compat; lra).
    unfold Rdiv in E1. apply Rmult_integral in E1 as [E1|E1]; [apply Rmult_integral in E1 as [E1|E1]; lra|lra]. }
  assert (Hs : match d_reff d, d_jref d with Some _, Some _ => False | _, _ => True end).
  { destruct Hp as [E'|E']; rewrite E'; [|destruct (d_reff d)]; exact I. }
  destruct (d_reff d), (d_jref d); try contradiction; cbn [bindR] in H;
  rewrite HJ1, HJ2, HTr, Hn1, Hn2 in H; cbn [attr bindR or_default] in H; injection H as _ <- _;
  unfold photocurrent; rewrite Hl, HJsc; unfold shunt; rewrite HRs, (Rmin_left Rs) by apply HR;
  rewrite E; apply Rmin_left; unfold cap; pose proof (pow10_pos 8); lra.
Qed.
Print Assumptions C31_open_circuit_partial.

Definition ex_voc : diode :=
  {| d_Rsh := Some 100; d_n1 := None; d_n2 := None; d_j01 := Some (/ 1000);
     d_j02 := Some (calculate_J02_from_Voc (/ 1000) 140 1 300 100);
     d_Tref := None; d_Eg := None; d_jsc := Some 140; d_eqe := None;
     d_reff := None; d_jref := None; d_db := None |}.
Example C31_open_circuit_case :
  plain ex_voc /\ exists r, iv_2diode ex_voc {| o_T := 300; o_light := true; o_source := 0; o_volt := [1] |} = Ok r.
Proof. split; [now left|]. eexists. reflexivity. Qed.

(** With the default shunt resistance of the helper (1e15) and the default of the
    solver (1e14), the current at Voc is not zero. *)
Theorem C31_open_circuit_refuted :
  exists d o d' iv cur J01 Jsc Voc,
    plain d /\ d_Rsh d = None /\ d_j01 d = Some J01 /\ d_jsc d = Some Jsc /\
    o_light o = true /\ d_j02 d = Some (calculate_J02_from_Voc J01 Jsc Voc (o_T o) default_R_shunt) /\
    iv_2diode d o = Ok (d', iv, cur) /\ iv Voc <> 0.
Proof.
  set (d := {| d_Rsh := None; d_n1 := None; d_n2 := None; d_j01 := Some (/ 1000);
     d_j02 := Some (calculate_J02_from_Voc (/ 1000) 140 1 300 default_R_shunt);
     d_Tref := None; d_Eg := None; d_jsc := Some 140; d_eqe := None;
     d_reff := None; d_jref := None; d_db := None |}).
  exists d, {| o_T := 300; o_light := true; o_source := 0; o_volt := [1] |}.
  do 3 eexists. exists (/ 1000), 140, 1. split; [now left|]. do 6 (split; [reflexivity|]).
  change (Rmin (two_diode (/ 1000) 1 (calculate_J02_from_Voc (/ 1000) 140 1 300 default_R_shunt) 2 (10 ^ 14) 140 300 1) cap <> 0).
  assert (E : two_diode (/ 1000) 1 (calculate_J02_from_Voc (/ 1000) 140 1 300 default_R_shunt) 2 (10 ^ 14) 140 300 1
              = 1 / 10 ^ 14 - 1 / 10 ^ 15).
  { unfold two_diode, calculate_J02_from_Voc, default_R_shunt. replace (1 * kb * 300) with (kb * 300) by ring.
    assert (1 < exp (q * 1 / (2 * kb * 300))).
    { apply exp_lt_1. pose proof q_pos. pose proof kb_pos. apply Rdiv_lt_0_compat; lra. }
    field. lra. }
  rewrite E. unfold Rmin, cap. destruct (Rle_dec _ _) as [_|Hn]; lra.
Qed.
Print Assumptions C31_open_circuit_refuted.

(** The efficiency path: at the reference voltage the radiative part is [reff] of
    the reference current and the whole dark current is the reference current. *)
Theorem C31_reference_point :
  forall d o d' iv cur reff jref j01T eqe,
    d_reff d = Some reff -> d_jref d = Some jref -> d_db d = Some (j01T, eqe) ->
    / 10 ^ 10 <= reff -> 0 < jref -> 0 < j01T (o_T o) -> 0 < o_T o ->
    pos (d_Rsh d) -> pos (d_n1 d) -> pos (d_n2 d) ->
    iv_2diode d o = Ok (d', iv, cur) ->
    exists Vref n1, 0 < Vref /\ n1 = match d_n1 d with Some n => n | None => 1 end /\
      j01T (o_T o) * (exp (q * Vref / (n1 * kb * o_T o)) - 1) = reff * jref /\
      d_j01 d' = Some (j01T (o_T o)) /\
      exists jsc, d_jsc d' = Some jsc /\ iv Vref = Rmin (jref - jsc) (10 ^ 8).
Proof.
  intros d o d' iv cur reff jref j01T eqe Hr Hj Hd Hreff Hjref Hj01 HT HR Hn1 Hn2 H.
  unfold iv_2diode, saturation in H. rewrite Hr, Hj, Hd in H. cbn [bindR] in H. injection H as <- <- _.
  rewrite Rmax_left by assumption.
  set (n1 := or_default (d_n1 d) 1). set (n2 := or_default (d_n2 d) 2).
  assert (0 < n1) by (apply or_default_pos; [assumption|lra]).
  assert (0 < n2) by (apply or_default_pos; [assumption|lra]).
  pose proof q_pos. pose proof kb_pos. assert (Hre : 0 < reff). { assert (0 < / 10 ^ 10) by (apply Rinv_0_lt_compat, pow10_pos). lra. }
  set (J := j01T (o_T o)) in *.
  assert (Hx : 0 < reff * jref / J) by (apply Rdiv_lt_0_compat; [apply Rmult_lt_0_compat; assumption|assumption]).
  assert (Hln : 0 < ln (reff * jref / J + 1)) by (rewrite <- ln_1; apply ln_increasing; lra).
  set (V := n1 * kb * o_T o / q * ln (reff * jref / J + 1)).
  assert (HV : 0 < V). { apply Rmult_lt_0_compat; [|assumption]. apply Rdiv_lt_0_compat; [|assumption]. repeat apply Rmult_lt_0_compat; assumption. }
  assert (E1 : q * V / (n1 * kb * o_T o) = ln (reff * jref / J + 1)).
  { unfold V. field. repeat split; lra. }
  assert (E2 : J * (exp (q * V / (n1 * kb * o_T o)) - 1) = reff * jref).
  { rewrite E1, exp_ln by lra. field. lra. }
  assert (E3 : 1 < exp (q * V / (n2 * kb * o_T o))).
  { apply exp_lt_1. apply Rdiv_lt_0_compat; [apply Rmult_lt_0_compat; assumption|]. repeat apply Rmult_lt_0_compat; assumption. }
  assert (HS : 0 < shunt d) by now apply shunt_pos.
  exists V, n1. split; [assumption|]. split; [reflexivity|]. split; [assumption|]. split; [reflexivity|].
  eexists. split; [reflexivity|]. unfold cap. f_equal. unfold two_diode.
  rewrite E2. set (E := exp (q * V / (n2 * kb * o_T o))) in *. field. lra.
Qed.
Print Assumptions C31_reference_point.

Example C31_reference_case :
  exists r, iv_2diode {| d_Rsh := None; d_n1 := None; d_n2 := None; d_j01 := None; d_j02 := None;
     d_Tref := None; d_Eg := Some 1; d_jsc := None; d_eqe := None;
     d_reff := Some (/ 2); d_jref := Some 100; d_db := Some (fun T => T, fun _ => 3) |} ex_opt = Ok r.
Proof. eexists. reflexivity. Qed.

(** * C32 *)
Lemma grow a p e : 0 < a -> 1 < p -> 1 <= e -> a < a * p * e.
Proof.
  intros Ha Hp He. assert (a * 1 < a * p) by now apply Rmult_lt_compat_l.
  assert (a * p * 1 <= a * p * e) by (apply Rmult_le_compat_l; lra). lra.
Qed.

Lemma update_one_id T j r : 0 < T -> update_one T T j = Ok r -> r = j.
Proof.
  intros HT. destruct j as [[[E|] a] b]; [|discriminate]. cbn. intros H. injection H as <-.
  replace (T / T) with 1 by (field; lra). replace (1 / T - 1 / T) with 0 by ring.
  rewrite !Rmult_0_r, exp_0. unfold Rpower. rewrite ln_1, Rmult_0_r, exp_0. f_equal; [f_equal|]; ring.
Qed.

Lemma Rpower_mult_base x y e : 0 < x -> 0 < y -> Rpower (x * y) e = Rpower x e * Rpower y e.
Proof. intros Hx Hy. symmetry. now apply Rpower_mult_distr. Qed.

Lemma update_one_compose T1 T2 T3 j r s : 0 < T1 -> 0 < T2 -> 0 < T3 ->
  update_one T2 T1 j = Ok r -> update_one T3 T2 r = Ok s -> update_one T3 T1 j = Ok s.
Proof.
  intros H1 H2 H3. destruct j as [[[E|] a] b]; [|discriminate]. cbn. intros Hr. injection Hr as <-. cbn. intros Hs. injection Hs as <-.
  assert (E1 : T3 / T1 = (T2 / T1) * (T3 / T2)) by (field; split; lra).
  assert (HA : 0 < T2 / T1) by now apply Rdiv_lt_0_compat. assert (HB : 0 < T3 / T2) by now apply Rdiv_lt_0_compat.
  rewrite E1, Rpower_mult_base by assumption.
  assert (Ex : forall k, exp (k * (1 / T3 - 1 / T1)) = exp (k * (1 / T2 - 1 / T1)) * exp (k * (1 / T3 - 1 / T2))).
  { intros k. rewrite <- exp_plus. f_equal. ring. }
  rewrite (Ex (- E / (kb / q))), (Ex (- (1 / 2) * E / (kb / q))). f_equal. f_equal; [f_equal|]; ring.
Qed.

Lemma update_j0_Forall2 T Tref js r : update_j0 js T Tref = Ok r ->
  Forall2 (fun j s => update_one T Tref j = Ok s) js r.
Proof.
  revert r. induction js as [|j js IH]; intros r H; cbn in H.
  - injection H as <-. constructor.
  - destruct (update_one T Tref j) eqn:E; [|discriminate]. cbn in H. destruct (update_j0 js T Tref); [|discriminate].
    cbn in H. injection H as <-. constructor; auto.
Qed.
Lemma Forall2_update_j0 T Tref js r :
  Forall2 (fun j s => update_one T Tref j = Ok s) js r -> update_j0 js T Tref = Ok r.
Proof. induction 1 as [|j s js r H _ IH]; [reflexivity|]. cbn. rewrite H, IH. reflexivity. Qed.

(** Updating for the same temperature changes nothing, updates compose, and a
    higher temperature gives larger saturation currents, for any list of junctions. *)
Theorem C32_update_j0 :
  (forall js T r, 0 < T -> update_j0 js T T = Ok r -> r = js) /\
  (forall js T1 T2 T3 r s, 0 < T1 -> 0 < T2 -> 0 < T3 ->
     update_j0 js T2 T1 = Ok r -> update_j0 r T3 T2 = Ok s -> update_j0 js T3 T1 = Ok s) /\
  (forall js T1 T2 r i E a b E' a' b', 0 < T1 -> T1 < T2 -> update_j0 js T2 T1 = Ok r ->
     nth_error js i = Some (Some E, a, b) -> nth_error r i = Some (E', a', b') ->
     0 <= E -> 0 < a -> 0 < b -> E' = Some E /\ a < a' /\ b < b') /\
  (forall js T Tref, (exists r, update_j0 js T Tref = Ok r) <-> (forall i a b, nth_error js i <> Some (None, a, b))).
Proof.
  split; [|split; [|split]].
  - intros js T r HT H. apply update_j0_Forall2 in H. induction H as [|j s js r H _ IH]; [reflexivity|].
    f_equal; [now apply (update_one_id T)|assumption].
  - intros js T1 T2 T3 r s H1 H2 H3 Hr Hs. apply update_j0_Forall2 in Hr. apply update_j0_Forall2 in Hs. apply Forall2_update_j0.
    revert s Hs. induction Hr as [|j x js r Hj _ IH]; intros s Hs; inversion Hs; subst; constructor.
    + apply (update_one_compose T1 T2 T3 j x); assumption.
    + now apply IH.
  - intros js T1 T2 r i E a b E' a' b' H1 H12 H Hi Hr HE Ha Hb. apply update_j0_Forall2 in H.
    assert (Hu : update_one T2 T1 (Some E, a, b) = Ok (E', a', b')).
    { clear - H Hi Hr. revert i Hi Hr. induction H as [|j x js r Hj _ IH]; intros [|i] Hi Hr; try discriminate.
      - injection Hi as ->. injection Hr as ->. assumption.
      - eapply IH; eauto. }
    cbn in Hu. injection Hu as <- <- <-. split; [reflexivity|].
    assert (Hq : 1 < T2 / T1) by (apply (Rmult_lt_reg_r T1); [lra|]; unfold Rdiv; rewrite Rmult_assoc, Rinv_l; lra).
    assert (Hk : 0 < kb / q) by (apply Rdiv_lt_0_compat; [apply kb_pos|apply q_pos]).
    assert (Hinv : 1 / T2 - 1 / T1 <= 0). { assert (/ T2 <= / T1) by (apply Rinv_le_contravar; lra). unfold Rdiv. lra. }
    assert (Hexp : forall k, 0 <= k -> 1 <= exp (- k / (kb / q) * (1 / T2 - 1 / T1))).
    { intros k Hk0. assert (0 <= - k / (kb / q) * (1 / T2 - 1 / T1)).
      { replace (- k / (kb / q) * (1 / T2 - 1 / T1)) with (k * / (kb / q) * - (1 / T2 - 1 / T1)) by (unfold Rdiv; ring).
        apply Rmult_le_pos; [|lra]. apply Rmult_le_pos; [assumption|]. left. now apply Rinv_0_lt_compat. }
      pose proof (exp_ineq1_le (- k / (kb / q) * (1 / T2 - 1 / T1))). lra. }
    assert (Hp3 : 1 < (T2 / T1) ^ 3) by (apply Rlt_pow_R1; [assumption|lia]).
    assert (Hp53 : 1 < Rpower (T2 / T1) (5 / 3)).
    { unfold Rpower. apply exp_lt_1. apply Rmult_lt_0_compat; [lra|]. rewrite <- ln_1. apply ln_increasing; lra. }
    pose proof (Hexp E HE) as He1. pose proof (Hexp (1 / 2 * E) ltac:(lra)) as He2.
    replace (- (1 / 2 * E)) with (- (1 / 2) * E) in He2 by ring. split; apply grow; assumption.
  - intros js T Tref. split.
    + intros [r H] i a b Hi. apply update_j0_Forall2 in H. revert i Hi. induction H as [|j x js r Hj _ IH]; intros [|i] Hi; try discriminate.
      * injection Hi as ->. discriminate.
      * now apply (IH i).
    + induction js as [|[[[E|] a] b] js IH]; intros H.
      * eexists. reflexivity.
      * destruct IH as [r Hr]; [intros i x y Hi; now apply (H (S i) x y)|]. cbn. rewrite Hr. eexists. reflexivity.
      * exfalso. now apply (H 0%nat a b).
Qed.
Print Assumptions C32_update_j0.

Example C32_case :
  exists r s, update_j0 [(Some (14 / 10), 1, 2); (Some 1, 3, 4)] 320 300 = Ok r /\ update_j0 r 340 320 = Ok s.
Proof. do 2 eexists. split; reflexivity. Qed.

(** The solver's own correction agrees with [update_j0] for ideality factors 1 and 2:
    solving a junction given at [Tref] is solving the updated junction. *)
Theorem C32_solver_agrees :
  forall d o Tref Eg j01 j02 r,
    plain d -> d_Tref d = Some Tref -> d_Eg d = Some Eg -> d_j01 d = Some j01 -> d_j02 d = Some j02 ->
    d_n1 d = None -> d_n2 d = None -> 0 < Tref -> 0 < o_T o ->
    update_j0 [(Some Eg, j01, j02)] (o_T o) Tref = Ok r ->
    exists j01' j02', r = [(Some Eg, j01', j02')] /\
    forall d2, d_Tref d2 = None -> d_j01 d2 = Some j01' -> d_j02 d2 = Some j02' ->
      d_reff d2 = None -> d_Rsh d2 = d_Rsh d -> d_n1 d2 = None -> d_n2 d2 = None ->
      d_jsc d2 = d_jsc d -> d_eqe d2 = d_eqe d ->
      exists d' iv cur d2' iv2 cur2, iv_2diode d o = Ok (d', iv, cur) /\ iv_2diode d2 o = Ok (d2', iv2, cur2) /\
        cur = cur2 /\ forall v, iv v = iv2 v.
Proof.
  intros d o Tref Eg j01 j02 r Hp HTr HEg H1 H2 Hn1 Hn2 HT0 HT Hu.
  assert (Hone : exists j01' j02', r = [(Some Eg, j01', j02')] /\
     saturation d (o_T o) = Ok (d, j01', j02')).
  { assert (Hs : saturation d (o_T o) = if Req_EM_T (o_T o) Tref then Ok (d, j01, j02)
        else Ok (d, scale_j01 Eg 1 (o_T o) Tref j01, scale_j02 Eg 2 (o_T o) Tref j02)).
    { unfold saturation. rewrite HTr, HEg, H1, H2, Hn1, Hn2. destruct Hp as [E|E]; rewrite E; [reflexivity|destruct (d_reff d); reflexivity]. }
    rewrite Hs. destruct (Req_EM_T (o_T o) Tref) as [<-|Hne].
    - apply (proj1 C32_update_j0) in Hu; [|assumption]. subst r. eauto.
    - cbn in Hu. injection Hu as <-. do 2 eexists. split; [reflexivity|]. unfold scale_j01, scale_j02.
      pose proof kb_pos. pose proof q_pos.
      replace (- Eg / (1 * (kb / q))) with (- Eg / (kb / q)) by (now rewrite Rmult_1_l).
      replace (- Eg / (2 * (kb / q))) with (- (1 / 2) * Eg / (kb / q)) by (field; lra). reflexivity. }
  destruct Hone as (a & b & -> & Hs). exists a, b. split; [reflexivity|].
  intros d2 T2 J1 J2 R2 S2 N1 N2 JS EQ. unfold iv_2diode at 1. rewrite Hs. cbn [bindR].
  unfold iv_2diode, saturation. rewrite R2, J1, J2, T2. cbn [attr bindR or_default].
  do 6 eexists. split; [reflexivity|]. split; [reflexivity|].
  rewrite N1, N2, Hn1, Hn2. cbn [or_default].
  assert (shunt d2 = shunt d) by (unfold shunt; now rewrite S2).
  assert (photocurrent d2 o = photocurrent d o) by (unfold photocurrent; now rewrite JS, EQ).
  rewrite H, H0. split; [reflexivity|intros; reflexivity].
Qed.
Print Assumptions C32_solver_agrees.

(** What a light measurement depends on. *)
Definition eff_photocurrent (source : nat) (d : diode) : R :=
  match d_jsc d with
  | Some j => j
  | None => match d_eqe d with
            | Some f => f source
            | None => match d_reff d, d_jref d, d_db d with
                      | Some _, Some _, Some (_, e) => e source
                      | _, _, _ => 0
                      end
            end
  end.
Definition same_light (source : nat) (a b : diode) : Prop :=
  d_Rsh a = d_Rsh b /\ d_n1 a = d_n1 b /\ d_n2 a = d_n2 b /\ d_Tref a = d_Tref b /\ d_Eg a = d_Eg b /\
  d_reff a = d_reff b /\ d_jref a = d_jref b /\ d_db a = d_db b /\
  eff_photocurrent source a = eff_photocurrent source b /\
  (plain b -> d_j01 a = d_j01 b /\ d_j02 a = d_j02 b).
Lemma same_light_refl source d : same_light source d d.
Proof. repeat split; auto. Qed.

Lemma light_step source a b p : same_light source a b -> o_light p = true -> o_source p = source ->
  match iv_2diode a p, iv_2diode b p with
  | Ok ra, Ok rb => snd ra = snd rb /\ (forall v, snd (fst ra) v = snd (fst rb) v) /\ same_light source (fst (fst ra)) b
  | Err x, Err y => x = y
  | _, _ => False
  end.
Proof.
  intros (A1 & A2 & A3 & A4 & A5 & A6 & A7 & A8 & A9 & A10) Hp Hps.
  assert (Hsh : shunt a = shunt b) by (unfold shunt; now rewrite A1).
  assert (Hsat : forall x, match saturation x (o_T p) with
     | Ok (x1, _, _) => photocurrent x1 p = eff_photocurrent source x /\
         d_Rsh x1 = d_Rsh x /\ d_n1 x1 = d_n1 x /\ d_n2 x1 = d_n2 x /\ d_Tref x1 = d_Tref x /\ d_Eg x1 = d_Eg x /\
         d_reff x1 = d_reff x /\ d_jref x1 = d_jref x /\ d_db x1 = d_db x /\ (plain x -> x1 = x)
     | Err _ => True end).
  { intros x. unfold saturation, plain. destruct (d_reff x) as [re|] eqn:Ere; [destruct (d_jref x) as [jr|] eqn:Ejr|].
    - destruct (d_db x) as [[f e]|] eqn:Edb; [|exact I]. unfold photocurrent, eff_photocurrent. cbn. rewrite Hp, Hps, Ere, Ejr, Edb.
      split; [now destruct (d_jsc x), (d_eqe x)|]. repeat split; auto. intros [E|E]; discriminate.
    - assert (Hx : photocurrent x p = eff_photocurrent source x).
      { unfold photocurrent, eff_photocurrent. rewrite Hp, Hps, Ere, Ejr. now destruct (d_jsc x), (d_eqe x). }
      destruct (d_j01 x); [|exact I]. cbn [attr bindR]. destruct (d_Tref x) eqn:ETr; [destruct (Req_EM_T _ _); [|destruct (d_Eg x) eqn:EEg; [|exact I]]|]; rewrite ?Ere; auto 20.
    - assert (Hx : photocurrent x p = eff_photocurrent source x).
      { unfold photocurrent, eff_photocurrent. rewrite Hp, Hps, Ere. now destruct (d_jsc x), (d_eqe x). }
      destruct (d_j01 x); [|exact I]. cbn [attr bindR]. destruct (d_Tref x) eqn:ETr; [destruct (Req_EM_T _ _); [|destruct (d_Eg x) eqn:EEg; [|exact I]]|]; auto 20. }
  assert (Hcur : match saturation a (o_T p), saturation b (o_T p) with
     | Ok (_, x, y), Ok (_, z, w) => x = z /\ y = w | Err x, Err y => x = y | _, _ => False end).
  { unfold saturation. rewrite A2, A3, A4, A5, A6, A7, A8, Hsh.
    destruct (d_reff b) as [re|] eqn:Ere; [destruct (d_jref b) as [jr|] eqn:Ejr|].
    - destruct (d_db b) as [[f e]|]; auto.
    - destruct (A10 ltac:(right; assumption)) as [-> ->].
      destruct (d_j01 b); [|reflexivity]. cbn [attr bindR]. destruct (d_Tref b); [destruct (Req_EM_T _ _); [|destruct (d_Eg b)]|]; auto.
    - destruct (A10 ltac:(left; assumption)) as [-> ->].
      destruct (d_j01 b); [|reflexivity]. cbn [attr bindR]. destruct (d_Tref b); [destruct (Req_EM_T _ _); [|destruct (d_Eg b)]|]; auto. }
  pose proof (Hsat a) as Sa. pose proof (Hsat b) as Sb. unfold iv_2diode.
  destruct (saturation a (o_T p)) as [[[a1 x] y]|], (saturation b (o_T p)) as [[[b1 z] w]|]; try contradiction; cbn [bindR]; [|assumption].
  destruct Hcur as [-> ->]. destruct Sa as (Sa & B1 & B2 & B3 & B4 & B5 & B6 & B7 & B8 & B9). destruct Sb as (Sb & _).
  rewrite Sa, Sb, A9, A2, A3, Hsh. cbn [fst snd]. split; [reflexivity|]. split; [reflexivity|].
  unfold same_light. cbn. rewrite B1, B2, B3, B4, B5, B6, B7, B8.
  repeat split; auto; unfold plain in *; rewrite A6, A7 in B9; rewrite B9 by assumption; now apply A10.
Qed.

(** * C33 *)

(** A history of light measurements under one source, at any temperatures, does not
    change a later light measurement under that source. *)
Theorem C33_light_history_partial :
  forall d os d' o source r,
    Forall (fun p => o_light p = true /\ o_source p = source) os ->
    o_light o = true -> o_source o = source ->
    solve_all d os = Ok d' -> iv_2diode d' o = Ok r ->
    exists r0, iv_2diode d o = Ok r0 /\ snd r = snd r0 /\ forall v, snd (fst r) v = snd (fst r0) v.
Proof.
  intros d os d' o source r Hos Hl Hsrc Hrun Hr.
  assert (Hsame : same_light source d' d).
  { clear Hr r o Hl Hsrc. assert (G : forall a, same_light source a d -> solve_all a os = Ok d' -> same_light source d' d).
    { clear Hrun. induction os as [|p os IH]; intros a Ha H; cbn in H; [injection H as <-; assumption|].
      destruct (Forall_inv Hos) as [Hp1 Hp2]. pose proof (Forall_inv_tail Hos) as Hos'.
      pose proof (light_step source a d p Ha Hp1 Hp2) as Hst.
      destruct (iv_2diode a p) as [[[a' f] cur]|]; [|discriminate]. cbn [bindR fst] in H.
      destruct (iv_2diode d p) as [rb|]; [|contradiction]. apply (IH Hos' a'); [|assumption]. apply Hst. }
    apply (G d); [apply same_light_refl|assumption]. }
  pose proof (light_step source d' d o Hsame Hl Hsrc) as Hst. rewrite Hr in Hst.
  destruct (iv_2diode d o) as [r0|]; [|contradiction]. exists r0. split; [reflexivity|]. tauto.
Qed.
Print Assumptions C33_light_history_partial.

Example C33_case :
  exists d' r, solve_all ex_diode [ex_opt; ex_opt] = Ok d' /\ iv_2diode d' ex_opt = Ok r.
Proof.
  unfold solve_all, iv_2diode, saturation. cbn. destruct (Req_EM_T 320 298); [lra|]. cbn.
  destruct (Req_EM_T 320 298); [lra|]. cbn. do 2 eexists. split; [reflexivity|].
  unfold saturation. cbn. destruct (Req_EM_T 320 298); [lra|]. reflexivity.
Qed.

(** A dark measurement erases the photocurrent for good: whatever happens next, a
    light measurement shows none. *)
Theorem C33_dark_erases_photocurrent :
  forall d o1 d1 iv1 cur1 os d2 o d3 iv cur,
    o_light o1 = false -> iv_2diode d o1 = Ok (d1, iv1, cur1) ->
    solve_all d1 os = Ok d2 -> iv_2diode d2 o = Ok (d3, iv, cur) -> iv 0 = 0.
Proof.
  assert (Hkeep : forall a p a' f l, d_jsc a = Some 0 -> iv_2diode a p = Ok (a', f, l) -> d_jsc a' = Some 0 /\ f 0 = 0).
  { intros a p a' f l Ha H. unfold iv_2diode in H.
    destruct (saturation a (o_T p)) as [[[a1 j01] j02]|] eqn:Es; [|discriminate]. cbn [bindR] in H.
    assert (Hj : d_jsc a1 = Some 0).
    { unfold saturation in Es. destruct (d_reff a); [destruct (d_jref a)|];
        [destruct (d_db a) as [[? ?]|]; [injection Es as <- _ _; exact Ha|discriminate]| |];
        (destruct (d_j01 a); [cbn [attr bindR] in Es|discriminate]; destruct (d_Tref a); [destruct (Req_EM_T _ _); [|destruct (d_Eg a); [|discriminate]]|]; injection Es as <- _ _; exact Ha). }
    assert (Hp : photocurrent a1 p = 0) by (unfold photocurrent; rewrite Hj; now destruct (o_light p)).
    injection H as <- <- _. rewrite Hp. split; [reflexivity|]. rewrite two_diode_0. unfold Rmin, cap.
    pose proof (pow10_pos 8). destruct (Rle_dec _ _); lra. }
  intros d o1 d1 iv1 cur1 os d2 o d3 iv cur Ho1 H1 Hos H.
  assert (Hd1 : d_jsc d1 = Some 0).
  { unfold iv_2diode in H1. destruct (saturation d (o_T o1)) as [[[a1 j01] j02]|]; [|discriminate]. cbn [bindR] in H1.
    injection H1 as <- _ _. cbn. unfold photocurrent. now rewrite Ho1. }
  assert (Hd2 : d_jsc d2 = Some 0).
  { clear H H1 Ho1. revert d1 Hd1 Hos. induction os as [|p os IH]; intros d1 Hd1 Hos; cbn in Hos; [now injection Hos as <-|].
    destruct (iv_2diode d1 p) as [[[a f] l]|] eqn:E; [|discriminate]. cbn [bindR fst] in Hos.
    apply (IH a); [|assumption]. eapply Hkeep; eauto. }
  eapply Hkeep; eauto.
Qed.
Print Assumptions C33_dark_erases_photocurrent.

(** Hence the light curve depends on an earlier dark measurement. *)
Theorem C33_dark_first_refuted :
  exists d dark light, o_light dark = false /\ o_light light = true /\
  exists d1 r1 r0, solve_all d [dark] = Ok d1 /\ iv_2diode d1 light = Ok r1 /\ iv_2diode d light = Ok r0 /\
    snd (fst r1) 0 = 0 /\ snd (fst r0) 0 = -140.
Proof.
  exists ex_voc, {| o_T := 300; o_light := false; o_source := 0; o_volt := [1] |},
    {| o_T := 300; o_light := true; o_source := 0; o_volt := [1] |}.
  do 2 (split; [reflexivity|]). do 3 eexists. do 3 (split; [reflexivity|]). cbn [fst snd].
  rewrite !two_diode_0. unfold Rmin, cap. cbn [photocurrent o_light d_jsc ex_voc set_jsc].
  split; destruct (Rle_dec _ _); lra.
Qed.
Print Assumptions C33_dark_first_refuted.

(** It also depends on the light source of the first light measurement. *)
Theorem C33_other_source_refuted :
  exists d o1 o2, o_light o1 = true /\ o_light o2 = true /\
  exists d1 r1 r0, solve_all d [o1] = Ok d1 /\ iv_2diode d1 o2 = Ok r1 /\ iv_2diode d o2 = Ok r0 /\
    snd (fst r1) 0 <> snd (fst r0) 0.
Proof.
  exists {| d_Rsh := None; d_n1 := None; d_n2 := None; d_j01 := Some 1; d_j02 := None;
     d_Tref := None; d_Eg := None; d_jsc := None; d_eqe := Some (fun s => INR s);
     d_reff := None; d_jref := None; d_db := None |},
    {| o_T := 300; o_light := true; o_source := 1; o_volt := [1] |},
    {| o_T := 300; o_light := true; o_source := 2; o_volt := [1] |}.
  do 2 (split; [reflexivity|]). do 3 eexists. do 3 (split; [reflexivity|]). cbn [fst snd].
  rewrite !two_diode_0. unfold Rmin, cap. cbn [photocurrent o_light o_source d_jsc d_eqe set_jsc].
  cbn [INR]. destruct (Rle_dec _ _), (Rle_dec _ _); lra.
Qed.
Print Assumptions C33_other_source_refuted.

(** * C75 *)

(** The reference-efficiency helper: at its own voltage the radiative current is
    the stated fraction and the total is the reference current. *)
Theorem C75_reference_efficiency :
  forall J01 Jsc eff T,
    0 < J01 -> 0 < Jsc -> 0 < eff -> 0 < T ->
    exists V, 0 < V /\
      let rad := J01 * (exp (q * V / (kb * T)) - 1) in
      let nonrad := j02_from_reference J01 Jsc eff T * (exp (q * V / (2 * kb * T)) - 1) in
      rad + nonrad = Jsc /\ rad = eff * (rad + nonrad).
Proof.
  intros J01 Jsc eff T HJ HS He HT. pose proof q_pos. pose proof kb_pos.
  assert (Hx : 0 < Jsc * eff / J01) by (apply Rdiv_lt_0_compat; [apply Rmult_lt_0_compat; assumption|assumption]).
  assert (Hln : 0 < ln (Jsc * eff / J01 + 1)) by (rewrite <- ln_1; apply ln_increasing; lra).
  set (V := kb * T / q * ln (Jsc * eff / J01 + 1)).
  assert (HV : 0 < V). { apply Rmult_lt_0_compat; [|assumption]. apply Rdiv_lt_0_compat; [|assumption]. now apply Rmult_lt_0_compat. }
  exists V. split; [assumption|]. cbv zeta.
  assert (E1 : q * V / (kb * T) = ln (Jsc * eff / J01 + 1)) by (unfold V; field; repeat split; lra).
  assert (E2 : J01 * (exp (q * V / (kb * T)) - 1) = Jsc * eff) by (rewrite E1, exp_ln by lra; field; lra).
  assert (E3 : 1 < exp (q * V / (2 * kb * T))).
  { apply exp_lt_1. apply Rdiv_lt_0_compat; [now apply Rmult_lt_0_compat|]. repeat apply Rmult_lt_0_compat; lra. }
  unfold j02_from_reference. fold V. set (E := exp (q * V / (2 * kb * T))) in *. rewrite E2.
  assert (E4 : (Jsc - eff * Jsc) / (E - 1) * (E - 1) = Jsc - eff * Jsc) by (field; lra).
  rewrite E4. split; ring.
Qed.
Print Assumptions C75_reference_efficiency.

(** The radiative-efficiency helper: the shunt current enters with the wrong sign,
    so the dark current exceeds the one of that efficiency by twice the shunt
    current; exact only without a shunt current. *)
Theorem C75_rad_eff_partial :
  forall J01 eff V T R_shunt,
    0 < V -> 0 < T -> eff <> 0 -> R_shunt <> 0 ->
    let rad := J01 * (exp (q * V / (kb * T)) - 1) in
    let nonrad := calculate_J02_from_rad_eff J01 eff V T R_shunt * (exp (q * V / (2 * kb * T)) - 1) + V / R_shunt in
    rad = eff * (rad + nonrad - 2 * (V / R_shunt)).
Proof.
  intros J01 eff V T Rs HV HT He HR rad nonrad. pose proof q_pos. pose proof kb_pos.
  assert (E3 : 1 < exp (q * V / (2 * kb * T))).
  { apply exp_lt_1. apply Rdiv_lt_0_compat; [now apply Rmult_lt_0_compat|]. repeat apply Rmult_lt_0_compat; lra. }
  unfold nonrad, calculate_J02_from_rad_eff, rad. set (E := exp (q * V / (2 * kb * T))) in *.
  set (F := exp (q * V / (kb * T))). field. repeat split; lra.
Qed.
Print Assumptions C75_rad_eff_partial.

Theorem C75_rad_eff_refuted :
  exists J01 eff V T R_shunt, 0 < J01 /\ 0 < eff < 1 /\ 0 < V /\ 0 < T /\ 0 < R_shunt /\
    let rad := J01 * (exp (q * V / (kb * T)) - 1) in
    let nonrad := calculate_J02_from_rad_eff J01 eff V T R_shunt * (exp (q * V / (2 * kb * T)) - 1) + V / R_shunt in
    rad <> eff * (rad + nonrad).
Proof.
  exists 1, (1 / 2), 1, 300, 1. do 5 (split; [lra|]). intros rad nonrad E.
  pose proof (C75_rad_eff_partial 1 (1 / 2) 1 300 1 ltac:(lra) ltac:(lra) ltac:(lra) ltac:(lra)) as H.
  cbv zeta in H. fold rad in H. fold nonrad in H. lra.
Qed.
Print Assumptions C75_rad_eff_refuted.

(** * C76 *)

(** The radiative saturation current is the Boltzmann emission above the gap: the
    difference for two gaps is the integral of (prefactor) E^2 exp(-E/kT) between
    them, it is positive, and it decreases with the gap and vanishes for large
    gaps. *)
Lemma J01_derive n T Eg : 0 < T ->
  is_derive (fun E => - calculate_J01 E T n) Eg
    (2 * PI * n ^ 2 * q / (4 * PI ^ 3 * hbar ^ 3 * c ^ 2) * q * (q * Eg) ^ 2 * exp (- (q * Eg) / (kb * T))).
Proof.
  intros HT. pose proof kb_pos. unfold calculate_J01. set (K := 2 * PI * n ^ 2 * q / _).
  auto_derive; [exact I|]. replace (- (q * Eg) / (kb * T)) with (- (Eg * q) / (kb * T)) by (f_equal; ring).
  set (X := exp (- (Eg * q) * / (kb * T))). unfold Rdiv. fold X. field. split; lra.
Qed.

Theorem C76_J01_is_emission :
  forall n T, 0 < T -> 0 < n ->
  let K := 2 * PI * n ^ 2 * q / (4 * PI ^ 3 * hbar ^ 3 * c ^ 2) in
  (forall Eg, 0 <= Eg -> 0 < calculate_J01 Eg T n) /\
  (forall a b, 0 <= a < b -> calculate_J01 b T n < calculate_J01 a T n) /\
  (forall eps, 0 < eps -> exists E0, forall Eg, E0 <= Eg -> calculate_J01 Eg T n < eps) /\
  (forall a b, is_RInt (fun E => K * q * (q * E) ^ 2 * exp (- (q * E) / (kb * T))) a b (calculate_J01 a T n - calculate_J01 b T n)).
Proof.
  intros n T HT Hn K. pose proof kb_pos. pose proof q_pos. pose proof hbar_pos. pose proof c_pos. pose proof PI_RGT_0.
  assert (HK : 0 < K).
  { unfold K. pose proof (pow_lt n 2 Hn). pose proof (pow_lt PI 3 PI_RGT_0). pose proof (pow_lt hbar 3 hbar_pos).
    pose proof (pow_lt c 2 c_pos). set (p := PI) in *. clearbody p.
    apply Rdiv_lt_0_compat; repeat apply Rmult_lt_0_compat; lra. }
  split; [|split; [|split]].
  - intros Eg HE. unfold calculate_J01. fold K.
    apply Rmult_lt_0_compat; [apply Rmult_lt_0_compat; [assumption|]|].
    + apply Rmult_lt_0_compat; [now apply Rmult_lt_0_compat|apply exp_pos].
    + assert (0 <= Eg * q) by (apply Rmult_le_pos; lra). assert (0 < kb * T) by now apply Rmult_lt_0_compat. nra.
  - intros a b Hab.
    set (f := fun E => - calculate_J01 E T n).
    set (df := fun E => K * q * (q * E) ^ 2 * exp (- (q * E) / (kb * T))).
    assert (Hd : forall E, is_derive f E (df E)).
    { intros E. now apply J01_derive. }
    destruct (MVT_gen f a b df) as (x & Hx & E).
    + intros x _. apply Hd.
    + intros x _. apply continuity_pt_filterlim. apply (ex_derive_continuous f). now exists (df x).
    + (* on the right half the derivative is positive *)
      set (m := (a + b) / 2).
      assert (Hlo : f a <= f m).
      { destruct (MVT_gen f a m df) as (y & Hy & Ey).
        - intros y _. apply Hd.
        - intros y _. apply continuity_pt_filterlim. apply (ex_derive_continuous f). now exists (df y).
        - assert (0 <= df y).
          { unfold df. apply Rmult_le_pos; [apply Rmult_le_pos; [apply Rmult_le_pos; lra|apply pow2_ge_0]|left; apply exp_pos]. }
          assert (0 <= df y * (m - a)) by (apply Rmult_le_pos; [assumption|unfold m; lra]). lra. }
      destruct (MVT_gen f m b df) as (y & Hy & Ey).
      * intros y _. apply Hd.
      * intros y _. apply continuity_pt_filterlim. apply (ex_derive_continuous f). now exists (df y).
      * rewrite Rmin_left in Hy by (unfold m; lra).
        assert (0 < y) by (unfold m in Hy; lra).
        assert (0 < df y).
        { unfold df. apply Rmult_lt_0_compat; [|apply exp_pos]. apply Rmult_lt_0_compat; [now apply Rmult_lt_0_compat|].
          apply pow_lt. now apply Rmult_lt_0_compat. }
        assert (0 < df y * (b - m)) by (apply Rmult_lt_0_compat; [assumption|unfold m; lra]).
        unfold f in *. lra.
  - intros eps Heps. set (u := kb * T). assert (Hu : 0 < u) by now apply Rmult_lt_0_compat.
    set (M := K * u ^ 3 * 135). assert (HM : 0 < M) by (apply Rmult_lt_0_compat; [apply Rmult_lt_0_compat; [assumption|now apply pow_lt]|lra]).
    exists ((M / eps + 1) * u / q). intros Eg HEg.
    set (x := q * Eg / u).
    assert (Hx : M / eps + 1 <= x).
    { unfold x. apply (Rmult_le_reg_r (u / q)); [now apply Rdiv_lt_0_compat|].
      replace (q * Eg / u * (u / q)) with Eg by (field; lra). unfold Rdiv in *. lra. }
    assert (0 < M / eps) by now apply Rdiv_lt_0_compat.
    assert (E : calculate_J01 Eg T n = K * u ^ 3 * (/ exp x * (x ^ 2 + 2 * x + 2))).
    { unfold calculate_J01. fold K. fold u. replace (- (Eg * q) / u) with (- x) by (unfold x; field; lra). rewrite exp_Ropp.
      assert (E5 : Eg * q = x * u) by (unfold x; field; lra). rewrite E5. unfold u. pose proof (exp_pos x). field. lra. }
    rewrite E.
    assert (Hex : x ^ 3 / 27 <= exp x).
    { replace x with (x / 3 + x / 3 + x / 3) at 2 by field. rewrite !exp_plus.
      pose proof (exp_ineq1_le (x / 3)). assert (Hy : x / 3 <= exp (x / 3)) by lra. set (e := exp (x / 3)) in *.
      replace (x ^ 3 / 27) with (x / 3 * (x / 3) * (x / 3)) by field.
      apply Rmult_le_compat; [|lra| |assumption]; [apply Rmult_le_pos; lra|]. apply Rmult_le_compat; lra. }
    assert (Hx3 : 0 < x ^ 3) by (apply pow_lt; lra).
    assert (Hb : / exp x * (x ^ 2 + 2 * x + 2) <= 135 / x).
    { apply Rle_trans with (27 / x ^ 3 * (5 * x ^ 2)).
      - apply Rmult_le_compat; [left; apply Rinv_0_lt_compat, exp_pos|nra| |nra].
        replace (27 / x ^ 3) with (/ (x ^ 3 / 27)) by (field; lra). apply Rinv_le_contravar; [|assumption]. lra.
      - right. field. lra. }
    apply Rle_lt_trans with (K * u ^ 3 * (135 / x)).
    + apply Rmult_le_compat_l; [|assumption]. left. apply Rmult_lt_0_compat; [assumption|now apply pow_lt].
    + replace (K * u ^ 3 * (135 / x)) with (M / x) by (unfold M; field; lra).
      apply (Rmult_lt_reg_r x); [lra|]. replace (M / x * x) with M by (field; lra).
      assert (M = M / eps * eps) by (field; lra). nra.
  - intros a b.
    set (f := fun E => - calculate_J01 E T n).
    replace (calculate_J01 a T n - calculate_J01 b T n) with (minus (f b) (f a)) by (unfold minus, plus, opp, f; cbn; ring).
    apply (is_RInt_derive f).
    + intros x _. now apply J01_derive.
    + intros x _. apply (ex_derive_continuous (fun E => K * q * (q * E) ^ 2 * exp (- (q * E) / (kb * T)))).
      auto_derive. exact I.
Qed.
Print Assumptions C76_J01_is_emission.

Example C76_case : 0 < 298 /\ 0 < (35 / 10) /\ 0 <= 1 < (14 / 10).
Proof. lra. Qed.

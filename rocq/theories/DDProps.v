(** Properties C127 (terminal currents), C128 (mass action and equilibrium) and C129 (fluxes)
    of the drift-diffusion module. *)
From Coq Require Import Reals List Bool Lia Lra.
From Coquelicot Require Import Coquelicot.
From Verif Require Import Common DDModel.
From Coq Require Import List.
Import ListNotations.
Open Scope R_scope.

Lemma sum_to_plus g h m : sum_to (fun k => g k + h k) m = sum_to g m + sum_to h m.
Proof. induction m as [|m IH]; cbn [sum_to]; [lra|rewrite IH; lra]. Qed.
Lemma sum_to_minus g h m : sum_to (fun k => g k - h k) m = sum_to g m - sum_to h m.
Proof. induction m as [|m IH]; cbn [sum_to]; [lra|rewrite IH; lra]. Qed.
Lemma sum_to_ext g h m : (forall k, (k < m)%nat -> g k = h k) -> sum_to g m = sum_to h m.
Proof. induction m as [|m IH]; intros H; cbn [sum_to]; [reflexivity|]. rewrite IH by (intros; apply H; lia). rewrite H by lia. reflexivity. Qed.
Lemma sum_to_le g h m : (forall k, (k < m)%nat -> g k <= h k) -> sum_to g m <= sum_to h m.
Proof. induction m as [|m IH]; intros H; cbn [sum_to]; [lra|]. specialize (H m) as Hm. specialize (IH (fun k L => H k (Nat.lt_lt_succ_r _ _ L))). specialize (Hm ltac:(lia)). lra. Qed.

(** * C127 *)

(** The continuity equations hold at every node. *)
Definition continuous (d : dev) (s : pot) (w : bnd) : Prop :=
  forall k, (k <= d_M d)%nat -> f_hole d s w k = 0 /\ f_electron d s w k = 0.

Lemma funcn_chain d s w k : continuous d s w -> (k < d_M d)%nat -> funcn d s k = funcn d s 0 + sum_to (GR d s) k.
Proof.
  intros C. induction k as [|k IH]; intros L; cbn [sum_to]; [lra|]. destruct (C (S k) ltac:(lia)) as [_ H].
  unfold f_electron in H. rewrite (proj2 (Nat.eqb_neq (S k) (d_M d))) in H by lia. cbn [Nat.eqb] in H. rewrite Nat.sub_succ, Nat.sub_0_r in H.
  rewrite <- Rplus_assoc, <- IH by lia. lra.
Qed.
Lemma funcp_chain d s w k : continuous d s w -> (k < d_M d)%nat -> funcp d s k = funcp d s 0 - sum_to (GR d s) k.
Proof.
  intros C. induction k as [|k IH]; intros L; cbn [sum_to]; [lra|]. destruct (C (S k) ltac:(lia)) as [H _].
  unfold f_hole in H. rewrite (proj2 (Nat.eqb_neq (S k) (d_M d))) in H by lia. cbn [Nat.eqb] in H. rewrite Nat.sub_succ, Nat.sub_0_r in H.
  specialize (IH ltac:(lia)). lra.
Qed.
Lemma ends d s w : continuous d s w -> (0 < d_M d)%nat ->
  funcp d s 0 = - ((1 - w_EQ w) * (1 - w_OCn w) * dd_q * s_pf w * (p d s 0 - e_pf w)) /\
  funcn d s 0 = (1 - w_EQ w) * (1 - w_OCp w) * dd_q * s_nf w * (n d s 0 - e_nf w) /\
  funcp d s (d_M d - 1) - GR d s (d_M d - 1) = (1 - w_EQ w) * (1 - w_OCp w) * dd_q * s_pb w * (p d s (d_M d) - e_pb w) /\
  funcn d s (d_M d - 1) + GR d s (d_M d - 1) = - ((1 - w_EQ w) * (1 - w_OCn w) * dd_q * s_nb w * (n d s (d_M d) - e_nb w)).
Proof.
  intros C L. destruct (C 0%nat ltac:(lia)) as [H1 H2]. destruct (C (d_M d) ltac:(lia)) as [H3 H4].
  unfold f_hole, f_electron in *. cbn [Nat.eqb] in H1, H2. rewrite Nat.eqb_refl in H3, H4.
  rewrite (proj2 (Nat.eqb_neq (d_M d) 0)) in H3, H4 by lia. lra.
Qed.

(** The current through element k. *)
Definition current (d : dev) (s : pot) (k : nat) : R := flux_n d s k + flux_p d s k.

(** C127: where the continuity equations are solved, the current is the same in every
    element. *)
Theorem C127_uniform : forall d s w, continuous d s w -> forall k, (k < d_M d)%nat -> current d s k = current d s 0.
Proof.
  intros d s w C k L. pose proof (funcn_chain d s w k C L) as A. pose proof (funcp_chain d s w k C L) as B.
  unfold funcn, funcp in A, B. unfold current. lra.
Qed.
(** ... and the current the module reports, put together from the recombination in the bulk,
    at the surfaces and the generation, is that current, with the sign of the polarity. *)
Theorem C127_terminal_partial : forall d s w, (0 < d_M d)%nat -> continuous d s w ->
  w_EQ w = 0 -> w_OCn w = 0 -> w_OCp w = 0 -> e_nf w <> 0 -> e_nb w <> 0 ->
  e_nf w * e_pf w = ni d 0 ^ 2 -> e_nb w * e_pb w = ni d (d_M d) ^ 2 ->
  (d_Na d (d_M d) < d_Nd d (d_M d) -> j_tot d s w = current d s 0) /\
  (d_Nd d (d_M d) < d_Na d (d_M d) -> j_tot d s w = - current d s 0).
Proof.
  intros d s w L C E1 E2 E3 N1 N2 Q1 Q2. destruct (ends d s w C L) as (B1 & B2 & B3 & B4). rewrite E1, E2, E3 in *.
  assert (A : ni d 0 ^ 2 / e_nf w = e_pf w) by (rewrite <- Q1; field; assumption).
  assert (A' : ni d (d_M d) ^ 2 / e_nb w = e_pb w) by (rewrite <- Q2; field; assumption).
  pose proof (funcn_chain d s w (d_M d - 1) C ltac:(lia)) as F1. pose proof (funcp_chain d s w (d_M d - 1) C ltac:(lia)) as F2.
  assert (T : sum_to (GR d s) (d_M d) = sum_to (GR d s) (d_M d - 1) + GR d s (d_M d - 1)).
  { destruct (d_M d) as [|m]; [lia|]. cbn [sum_to]. now rewrite Nat.sub_succ, Nat.sub_0_r. }
  unfold j_tot, j_front, j_back, current, funcn, funcp in *. rewrite A, A', T.
  destruct (Rlt_dec (d_Na d (d_M d)) (d_Nd d (d_M d))); destruct (Rlt_dec (d_Nd d (d_M d)) (d_Na d (d_M d))); try lra;
    split; intros; lra.
Qed.
(** The reported total is recombination minus generation; with non-negative recombination
    it cannot collect more than what is generated. *)
Theorem C127_balance : forall d s w,
  j_tot d s w = j_srh d s + j_rad d s + j_aug d s + j_front d s w + j_back d s w - sum_to (d_G d) (d_M d) /\
  (0 <= j_srh d s -> 0 <= j_rad d s -> 0 <= j_aug d s -> 0 <= j_front d s w -> 0 <= j_back d s w -> - j_tot d s w <= sum_to (d_G d) (d_M d)).
Proof.
  intros d s w. assert (E : sum_to (GR d s) (d_M d) = j_srh d s + j_rad d s + j_aug d s - sum_to (d_G d) (d_M d)).
  { unfold GR, j_srh, j_rad, j_aug. rewrite sum_to_minus. f_equal. rewrite (sum_to_plus (fun k => Rsrh d s k + Rrad d s k)). now rewrite sum_to_plus. }
  unfold j_tot. rewrite E. split; [lra|intros; lra].
Qed.

(** A device of one element without recombination: a current of electrons from one
    surface to the other. *)
Definition one_dev (na nd : R) : dev :=
  mkDev 1 (fun _ => 1) 1 (fun _ => 0) (fun _ => 0) (fun _ => 1) (fun _ => 1) (fun _ => 1) (fun _ => 1) (fun _ => 1)
    (fun _ => 1) (fun _ => 1) (fun _ => 1) (fun _ => 1) (fun _ => 1) (fun _ => nd) (fun _ => na) (fun _ => 0) 0 0 0.
Definition one_pot : pot := mkPot (fun _ => 0) (fun _ => 0) (fun k => match k with O => - ln (3 / 2) | _ => 0 end).
Definition one_bnd : bnd := mkBnd 1 0 1 0 2 (1 / 2) (1 / 2) 2 0 0 0 0 0.
Lemma one_ni na nd k : ni (one_dev na nd) k = 1.
Proof. unfold ni. cbn. rewrite <- Ropp_mult_distr_l, Rmult_0_r, Ropp_0, exp_0, !Rmult_1_r. apply sqrt_1. Qed.
Lemma one_Vn na nd k : Vn (one_dev na nd) k = 0.
Proof. unfold Vn. cbn. replace (1 / 1) with 1 by lra. rewrite ln_1. lra. Qed.
Lemma one_Vp na nd k : Vp (one_dev na nd) k = 0.
Proof. unfold Vp. cbn. replace (1 / 1) with 1 by lra. rewrite ln_1. lra. Qed.
Lemma one_n na nd k : n (one_dev na nd) one_pot k = match k with O => 3 / 2 | _ => 1 end.
Proof.
  unfold n. rewrite one_ni, one_Vn. destruct k; cbn; rewrite Rmult_1_l.
  - replace (0 - - ln (3 / 2) + 0) with (ln (3 / 2)) by lra. apply exp_ln. lra.
  - rewrite Rminus_0_r, Rplus_0_r. apply exp_0.
Qed.
Lemma one_p na nd k : p (one_dev na nd) one_pot k = 1.
Proof. unfold p. rewrite one_ni, one_Vp. cbn. rewrite Ropp_0, !Rplus_0_r, exp_0. lra. Qed.
Lemma one_GR na nd k : GR (one_dev na nd) one_pot k = 0.
Proof. unfold GR, Rsrh, Rrad, Raug. cbn [one_dev d_SRH d_RAD d_AUG d_G]. rewrite !Rmult_0_l. lra. Qed.
Lemma Z_0 : Z 0 = 1.
Proof. unfold Z. rewrite Rabs_R0. destruct (Rlt_dec 0 tiny) as [_|N]; [lra|]. exfalso. apply N. unfold tiny. apply Rdiv_lt_0_compat; [lra|]. apply pow_lt. lra. Qed.
Lemma one_flux_n na nd : flux_n (one_dev na nd) one_pot 0 = - dd_q / 2.
Proof.
  unfold flux_n. assert (C : Cn (one_dev na nd) one_pot (0 + 1) - Cn (one_dev na nd) one_pot 0 = 0).
  { unfold Cn. rewrite !one_Vn. cbn. replace (1 / 1) with 1 by lra. rewrite ln_1. lra. }
  rewrite C, Z_0, one_n. cbn [Nat.add one_dev d_mun d_b d_dX one_pot o_Fn].
  replace (0 - - ln (3 / 2)) with (ln (3 / 2)) by lra. rewrite exp_ln by lra. field.
Qed.
Lemma one_flux_p na nd : flux_p (one_dev na nd) one_pot 0 = 0.
Proof. unfold flux_p. cbn [one_pot o_Fp]. rewrite Rminus_0_r, exp_0. lra. Qed.
Lemma one_continuous na nd : continuous (one_dev na nd) one_pot one_bnd.
Proof.
  intros k L. cbn [one_dev d_M] in L. assert (K : k = 0%nat \/ k = 1%nat) by lia. unfold f_hole, f_electron, funcn, funcp.
  destruct K as [-> | ->]; cbn [Nat.eqb one_dev d_M Nat.sub]; fold (one_dev na nd);
    rewrite ?one_GR, ?one_flux_n, ?one_flux_p, ?one_n, ?one_p; cbn; split; lra.
Qed.
Lemma one_poisson na nd k : (k <= 1)%nat -> f_poisson (one_dev na nd) one_pot one_bnd k = 0.
Proof. intros L. assert (K : k = 0%nat \/ k = 1%nat) by lia. destruct K as [-> | ->]; unfold f_poisson; cbn; lra. Qed.
Example C127_example : continuous (one_dev 0 1) one_pot one_bnd /\ current (one_dev 0 1) one_pot 0 = - dd_q / 2 /\
  (0 < d_M (one_dev 0 1))%nat /\ e_nf one_bnd * e_pf one_bnd = ni (one_dev 0 1) 0 ^ 2 /\ e_nb one_bnd * e_pb one_bnd = ni (one_dev 0 1) 1 ^ 2 /\
  d_Na (one_dev 0 1) 1 < d_Nd (one_dev 0 1) 1.
Proof.
  split; [apply one_continuous|]. split; [unfold current; rewrite one_flux_n, one_flux_p; lra|]. rewrite !one_ni.
  split; [cbn; lia|]. repeat split; cbn; lra.
Qed.
(** With a compensated (or undoped) last node the surfaces are left out: the module reports
    no current although all equations hold and a current flows. *)
Theorem C127_terminal_refuted : exists d s w, (0 < d_M d)%nat /\ continuous d s w /\ (forall k, (k <= d_M d)%nat -> f_poisson d s w k = 0) /\
  w_EQ w = 0 /\ w_OCn w = 0 /\ w_OCp w = 0 /\ e_nf w * e_pf w = ni d 0 ^ 2 /\ e_nb w * e_pb w = ni d (d_M d) ^ 2 /\
  j_tot d s w = 0 /\ current d s 0 <> 0.
Proof.
  exists (one_dev 1 1), one_pot, one_bnd. split; [cbn; lia|]. split; [apply one_continuous|]. split; [apply one_poisson|].
  rewrite !one_ni. repeat split; try (cbn; lra).
  - unfold j_tot, j_front, j_back. cbn [one_dev d_M d_Nd d_Na sum_to]. fold (one_dev 1 1). rewrite one_GR.
    destruct (Rlt_dec 1 1); lra.
  - unfold current. rewrite one_flux_n, one_flux_p. pose proof dd_q_pos. lra.
Qed.

(** * C128 *)

Definition physical (d : dev) : Prop := forall k, 0 < d_Nc d k /\ 0 < d_Nv d k.
Lemma ni_sq d k : physical d -> ni d k ^ 2 = d_Nc d k * d_Nv d k * exp (- d_b d * d_Eg d k).
Proof.
  intros P. unfold ni. rewrite <- Rsqr_pow2. apply Rsqr_sqrt. destruct (P k). left. apply Rmult_lt_0_compat; [now apply Rmult_lt_0_compat|apply exp_pos].
Qed.
Lemma ni_pos d k : physical d -> 0 < ni d k.
Proof. intros P. destruct (P k). apply sqrt_lt_R0, Rmult_lt_0_compat; [now apply Rmult_lt_0_compat|apply exp_pos]. Qed.
(** C128: at every node the product of the densities is ni^2 times the exponential of the
    split of the quasi-Fermi potentials, in any material and at any potential. *)
Theorem C128_mass_action : forall d s k, physical d -> n d s k * p d s k = ni d k ^ 2 * exp (o_Fp s k - o_Fn s k).
Proof.
  intros d s k P. rewrite ni_sq by assumption. unfold n, p, Vn, Vp. destruct (P k) as [P1 P2]. destruct (P (d_M d)) as [P3 P4].
  set (m := d_M d) in *.
  replace (ni d m * exp (o_Psi s k - o_Fn s k + (ln (d_Nc d k / d_Nc d m) + d_b d * (d_Xi d k - d_Xi d m))) *
    (ni d m * exp (- o_Psi s k + o_Fp s k + (ln (d_Nv d k / d_Nv d m) - d_b d * (d_Eg d k - d_Eg d m) - d_b d * (d_Xi d k - d_Xi d m)))))
    with (ni d m ^ 2 * (exp (o_Psi s k - o_Fn s k + (ln (d_Nc d k / d_Nc d m) + d_b d * (d_Xi d k - d_Xi d m))) *
      exp (- o_Psi s k + o_Fp s k + (ln (d_Nv d k / d_Nv d m) - d_b d * (d_Eg d k - d_Eg d m) - d_b d * (d_Xi d k - d_Xi d m))))) by ring.
  rewrite <- exp_plus, ni_sq by assumption.
  match goal with |- context [exp (?a + ?b)] => replace (a + b) with
    (ln (d_Nc d k / d_Nc d m) + (ln (d_Nv d k / d_Nv d m) + ((d_b d * d_Eg d m) + (- d_b d * d_Eg d k + (o_Fp s k - o_Fn s k))))) by ring end.
  rewrite !exp_plus, !exp_ln by now apply Rdiv_lt_0_compat.
  replace (- d_b d * d_Eg d m) with (- (d_b d * d_Eg d m)) by ring. rewrite exp_Ropp. field. repeat split; try lra;
  apply Rgt_not_eq, exp_pos.
Qed.
(** Recombination exceeds generation by carriers exactly where the hole quasi-Fermi
    potential lies above that of the electrons, for each process. *)
Theorem C128_direction : forall d s k, physical d -> 0 < d_tn d k -> 0 < d_tp d k -> 0 < d_ccn d k -> 0 < d_ccp d k ->
  (0 < urad d s k <-> o_Fn s k < o_Fp s k) /\ (0 < urec d s k <-> o_Fn s k < o_Fp s k) /\ (0 < uaug d s k <-> o_Fn s k < o_Fp s k) /\
  (urad d s k = 0 <-> o_Fn s k = o_Fp s k) /\ (urec d s k = 0 <-> o_Fn s k = o_Fp s k) /\ (uaug d s k = 0 <-> o_Fn s k = o_Fp s k).
Proof.
  intros d s k P T1 T2 C1 C2. pose proof (ni_pos d k P) as Pn. pose proof (ni_pos d (d_M d) P) as PM.
  assert (Pa : 0 < n d s k) by (apply Rmult_lt_0_compat; [assumption|apply exp_pos]).
  assert (Pb : 0 < p d s k) by (apply Rmult_lt_0_compat; [assumption|apply exp_pos]).
  assert (U : urad d s k = ni d k ^ 2 * (exp (o_Fp s k - o_Fn s k) - 1)) by (unfold urad; rewrite C128_mass_action by assumption; ring).
  assert (Psq : 0 < ni d k ^ 2) by now apply pow_lt.
  assert (A : 0 < urad d s k <-> o_Fn s k < o_Fp s k).
  { rewrite U. split; intros H.
    - assert (1 < exp (o_Fp s k - o_Fn s k)) by nra. rewrite <- exp_0 in H0. apply exp_lt_inv in H0. lra.
    - apply Rmult_lt_0_compat; [assumption|]. rewrite <- exp_0. apply Rlt_Rminus, exp_increasing. lra. }
  assert (B : urad d s k = 0 <-> o_Fn s k = o_Fp s k).
  { rewrite U. split; intros H.
    - apply Rmult_integral in H. destruct H as [H|H]; [lra|]. assert (exp (o_Fp s k - o_Fn s k) = exp 0) by (rewrite exp_0; lra). apply exp_inv in H0. lra.
    - rewrite H. replace (o_Fp s k - o_Fp s k) with 0 by ring. rewrite exp_0. ring. }
  assert (PS : 0 < srh_term d s k) by (unfold srh_term; assert (0 < d_tn d k * (p d s k + ni d k)) by (apply Rmult_lt_0_compat; lra); assert (0 < d_tp d k * (n d s k + ni d k)) by (apply Rmult_lt_0_compat; lra); lra).
  assert (PA : 0 < d_ccn d k * n d s k + d_ccp d k * p d s k) by (assert (0 < d_ccn d k * n d s k) by (now apply Rmult_lt_0_compat); assert (0 < d_ccp d k * p d s k) by (now apply Rmult_lt_0_compat); lra).
  assert (Sc : forall c, 0 < c -> (0 < c * urad d s k <-> 0 < urad d s k) /\ (c * urad d s k = 0 <-> urad d s k = 0)).
  { intros c Pc. split; split; intros H; nra. }
  assert (E1 : urec d s k = / srh_term d s k * urad d s k) by (unfold urec, Rdiv; ring).
  assert (E2 : uaug d s k = (d_ccn d k * n d s k + d_ccp d k * p d s k) * urad d s k) by reflexivity.
  destruct (Sc _ (Rinv_0_lt_compat _ PS)) as [S1 S2]. destruct (Sc _ PA) as [S3 S4]. rewrite <- E1 in S1, S2. rewrite <- E2 in S3, S4. tauto.
Qed.

(** The quasi-Fermi potentials are equal and constant. *)
Definition flat (d : dev) (s : pot) (c : R) : Prop := forall k, (k <= d_M d)%nat -> o_Fn s k = c /\ o_Fp s k = c.
(** C128: with equal, constant quasi-Fermi potentials and no light there is no
    recombination, no current, and the continuity equations hold, in the equilibrium mode
    and at the equilibrium densities in the others. *)
Theorem C128_equilibrium : forall d s w c, physical d -> (0 < d_M d)%nat -> flat d s c -> (forall k, d_G d k = 0) ->
  (w_EQ w = 1 \/ (e_nf w = n d s 0 /\ e_pf w = p d s 0 /\ e_nb w = n d s (d_M d) /\ e_pb w = p d s (d_M d))) ->
  (forall k, (k < d_M d)%nat -> GR d s k = 0 /\ flux_n d s k = 0 /\ flux_p d s k = 0) /\ continuous d s w /\
  n d s 0 * p d s 0 = ni d 0 ^ 2 /\ n d s (d_M d) * p d s (d_M d) = ni d (d_M d) ^ 2.
Proof.
  intros d s w c P L F G B.
  assert (U : forall k, (k <= d_M d)%nat -> n d s k * p d s k = ni d k ^ 2).
  { intros k K. rewrite C128_mass_action by assumption. destruct (F k K) as [-> ->]. replace (c - c) with 0 by ring. rewrite exp_0. ring. }
  assert (U' : forall k, (k <= d_M d)%nat -> urad d s k = 0) by (intros k K; unfold urad; rewrite U by assumption; ring).
  assert (X : forall k, (k < d_M d)%nat -> GR d s k = 0 /\ flux_n d s k = 0 /\ flux_p d s k = 0).
  { intros k K. split; [|split].
    - unfold GR, Rsrh, Rrad, Raug, urec, uaug. rewrite !U' by lia. rewrite G. unfold Rdiv. ring.
    - unfold flux_n. destruct (F k ltac:(lia)) as [-> _]. destruct (F (k + 1)%nat ltac:(lia)) as [-> _]. replace (c - c) with 0 by ring. rewrite exp_0. ring.
    - unfold flux_p. destruct (F k ltac:(lia)) as [_ ->]. destruct (F (k + 1)%nat ltac:(lia)) as [_ ->]. replace (c - c) with 0 by ring. rewrite exp_0. ring. }
  split; [exact X|]. split; [|split; apply U; lia].
  assert (E1 : (1 - w_EQ w) * (p d s 0 - e_pf w) = 0) by (destruct B as [-> | (_ & -> & _ & _)]; ring).
  assert (E2 : (1 - w_EQ w) * (n d s 0 - e_nf w) = 0) by (destruct B as [-> | (-> & _ & _ & _)]; ring).
  assert (E3 : (1 - w_EQ w) * (p d s (d_M d) - e_pb w) = 0) by (destruct B as [-> | (_ & _ & _ & ->)]; ring).
  assert (E4 : (1 - w_EQ w) * (n d s (d_M d) - e_nb w) = 0) by (destruct B as [-> | (_ & _ & -> & _)]; ring).
  intros k K. unfold f_hole, f_electron, funcn, funcp. destruct (Nat.eqb_spec k 0) as [->|K0]; [|destruct (Nat.eqb_spec k (d_M d)) as [->|KM]].
  - destruct (X 0%nat L) as (-> & -> & ->). split.
    + replace (- (0 + 0) - (1 - w_EQ w) * (1 - w_OCn w) * dd_q * s_pf w * (p d s 0 - e_pf w)) with (- (1 - w_OCn w) * dd_q * s_pf w * ((1 - w_EQ w) * (p d s 0 - e_pf w))) by ring. rewrite E1. ring.
    + replace (- (0 - 0) + (1 - w_EQ w) * (1 - w_OCp w) * dd_q * s_nf w * (n d s 0 - e_nf w)) with ((1 - w_OCp w) * dd_q * s_nf w * ((1 - w_EQ w) * (n d s 0 - e_nf w))) by ring. rewrite E2. ring.
  - destruct (X (d_M d - 1)%nat ltac:(lia)) as (-> & -> & ->). split.
    + replace (0 + 0 - 0 - (1 - w_EQ w) * (1 - w_OCp w) * dd_q * s_pb w * (p d s (d_M d) - e_pb w)) with (- (1 - w_OCp w) * dd_q * s_pb w * ((1 - w_EQ w) * (p d s (d_M d) - e_pb w))) by ring. rewrite E3. ring.
    + replace (0 - 0 + 0 + (1 - w_EQ w) * (1 - w_OCn w) * dd_q * s_nb w * (n d s (d_M d) - e_nb w)) with ((1 - w_OCn w) * dd_q * s_nb w * ((1 - w_EQ w) * (n d s (d_M d) - e_nb w))) by ring. rewrite E4. ring.
  - destruct (X (k - 1)%nat ltac:(lia)) as (-> & -> & ->). destruct (X k ltac:(lia)) as (-> & -> & ->). split; ring.
Qed.
(** In the equilibrium mode no solution of the continuity equations carries a current. *)
Theorem C128_no_current : forall d s w, (0 < d_M d)%nat -> continuous d s w -> w_EQ w = 1 ->
  (forall k, (k < d_M d)%nat -> current d s k = 0) /\ sum_to (GR d s) (d_M d) = 0.
Proof.
  intros d s w L C E. destruct (ends d s w C L) as (B1 & B2 & B3 & B4). rewrite E in *.
  pose proof (funcn_chain d s w (d_M d - 1) C ltac:(lia)) as F1.
  assert (T : sum_to (GR d s) (d_M d) = sum_to (GR d s) (d_M d - 1) + GR d s (d_M d - 1)).
  { destruct (d_M d) as [|m]; [lia|]. cbn [sum_to]. now rewrite Nat.sub_succ, Nat.sub_0_r. }
  split; [|rewrite T; lra]. intros k K. rewrite (C127_uniform d s w C k K). unfold current, funcn, funcp in *. lra.
Qed.
Example C128_example : physical (one_dev 0 1) /\ flat (one_dev 0 1) (mkPot (fun _ => 2) (fun k => INR k) (fun _ => 2)) 2.
Proof. split; [intros k; cbn; lra|]. intros k _. split; reflexivity. Qed.

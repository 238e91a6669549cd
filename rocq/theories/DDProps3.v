(** Property C131: the Jacobian of the drift-diffusion module. *)
From Coq Require Import Reals List Bool Lia Lra.
From Coquelicot Require Import Coquelicot.
From Verif Require Import Common DDModel DDProps DDProps2.
From Coq Require Import List.
Import ListNotations.
Open Scope R_scope.

(** One unknown of one node replaced, and its value. *)
Definition setu (u : unk) (j : nat) (t : R) (s : pot) : pot :=
  match u with
  | UFp => mkPot (fun k => if (k =? j)%nat then t else o_Fp s k) (o_Psi s) (o_Fn s)
  | UPsi => mkPot (o_Fp s) (fun k => if (k =? j)%nat then t else o_Psi s k) (o_Fn s)
  | UFn => mkPot (o_Fp s) (o_Psi s) (fun k => if (k =? j)%nat then t else o_Fn s k)
  end.
Definition valu (u : unk) (j : nat) (s : pot) : R := match u with UFp => o_Fp s j | UPsi => o_Psi s j | UFn => o_Fn s j end.

Ltac eqbs := repeat match goal with |- context [(?a =? ?b)%nat] =>
  (rewrite (proj2 (Nat.eqb_neq a b)) by lia) || (rewrite (proj2 (Nat.eqb_eq a b)) by lia) end.
Ltac plain_derive := match goal with |- is_derive _ _ _ => auto_derive; [try tauto|] end.

(** C131: the rows of Poisson's equation are exact, for all nine unknowns of an inner node. *)
Theorem C131_poisson : forall d s w k u side, (0 < k < d_M d)%nat -> (side <= 2)%nat -> d_dX d k <> 0 -> d_dX d (k - 1) <> 0 ->
  is_derive (fun t => f_poisson d (setu u (k - 1 + side) t s) w k) (valu u (k - 1 + side) s) (J_poisson d s k u side).
Proof.
  intros d s w k u side Hk Hs N1 N2. destruct k as [|k]; [lia|]. replace (S k - 1)%nat with k in * by lia.
  unfold f_poisson, Rho. rewrite (proj2 (Nat.eqb_neq (S k) 0)), (proj2 (Nat.eqb_neq (S k) (d_M d))) by lia. replace (S k - 1)%nat with k by lia. replace (S k + 1)%nat with (S (S k)) by lia.
  assert (Hside : side = 0%nat \/ side = 1%nat \/ side = 2%nat) by lia. unfold n, p.
  destruct u; destruct Hside as [-> | [-> | ->]]; cbn [setu valu J_poisson o_Fp o_Psi o_Fn]; eqbs;
    replace (k + 0)%nat with k by lia; replace (k + 1)%nat with (S k) by lia; replace (S k + 1)%nat with (S (S k)) by lia; replace (k + 2)%nat with (S (S k)) by lia; replace (S k - 1)%nat with k by lia;
    plain_derive; unfold n, p, Rminus; try (field; try assumption; repeat split; assumption).
Qed.

(** The derivative of the weight away from zero. *)
Lemma Z_derive u : tiny < Rabs u -> is_derive Z u (dZ u).
Proof.
  intros H. assert (N : u <> 0) by (apply big_nonzero; lra). pose proof (exp_minus_1 u N) as N'.
  apply (is_derive_ext_loc (fun x => x / (exp x - 1))).
  - assert (Ex : 0 < Rabs u - tiny) by lra. exists (mkposreal _ Ex). intros y By. symmetry. apply Z_exact.
    assert (By' : Rabs (y - u) < Rabs u - tiny) by exact By.
    pose proof (Rabs_triang_inv u y). rewrite Rabs_minus_sym in By'. lra.
  - unfold dZ. destruct (Rlt_dec (Rabs u) tiny); [lra|]. auto_derive; [assumption|]. field. assumption.
Qed.

(** Recombination and light switched off. *)
Definition quiet (d : dev) : Prop := d_SRH d = 0 /\ d_RAD d = 0 /\ d_AUG d = 0 /\ forall k, d_G d k = 0.
Lemma quiet_GR d s k : quiet d -> GR d s k = 0.
Proof. intros (A & B & C & D). unfold GR, Rsrh, Rrad, Raug. rewrite A, B, C, D. ring. Qed.
Lemma quiet_dgrec d s u k j : quiet d -> dgrec d s u k j = 0.
Proof. intros (A & B & C & D). unfold dgrec, dg_p, dg_psi, dg_n. rewrite A, B, C. unfold Rdiv. destruct u; ring. Qed.

(** The flux of element k with the unknown u of node j varied. *)
Lemma flux_n_other d s u j k t : (j <> k)%nat -> (j <> k + 1)%nat -> flux_n d (setu u j t s) k = flux_n d s k.
Proof. intros A B. unfold flux_n, n, Cn. destruct u; cbn [setu o_Fp o_Psi o_Fn]; eqbs; reflexivity. Qed.
Lemma flux_p_other d s u j k t : (j <> k)%nat -> (j <> k + 1)%nat -> flux_p d (setu u j t s) k = flux_p d s k.
Proof. intros A B. unfold flux_p, p, Cp. destruct u; cbn [setu o_Fp o_Psi o_Fn]; eqbs; reflexivity. Qed.

Lemma flux_n_derive d s u right k : quiet d -> d_b d <> 0 -> d_dX d k <> 0 -> tiny < Rabs (Cn d s (k + 1) - Cn d s k) ->
  is_derive (fun t => flux_n d (setu u (if right : bool then k + 1 else k)%nat t s) k) (valu u (if right then k + 1 else k)%nat s) (dfuncn d s u right k).
Proof.
  intros Q Nb Nx H. pose proof (Z_derive _ H) as D. assert (Ex : ex_derive Z (Cn d s (k + 1) - Cn d s k)) by (eexists; exact D).
  apply is_derive_unique in D.
  unfold dfuncn. rewrite !(quiet_dgrec d s) by assumption. rewrite !(quiet_GR d s) by assumption. rewrite <- !D. clear D.
  unfold flux_n, n, Cn in *. unfold Rminus in *.
  destruct u; destruct right; cbn [setu valu o_Fp o_Psi o_Fn] in *; eqbs;
    (auto_derive; [repeat split; try tauto; try exact Ex|]); unfold Rminus in *; change (Derive (fun x : R => Z x)) with (Derive Z); field; repeat split; assumption.
Qed.
Lemma flux_p_derive d s u right k : quiet d -> d_b d <> 0 -> d_dX d k <> 0 -> tiny < Rabs (Cp d s (k + 1) - Cp d s k) ->
  is_derive (fun t => flux_p d (setu u (if right : bool then k + 1 else k)%nat t s) k) (valu u (if right then k + 1 else k)%nat s) (dfuncp d s u right k).
Proof.
  intros Q Nb Nx H. pose proof (Z_derive _ H) as D. assert (Ex : ex_derive Z (Cp d s (k + 1) - Cp d s k)) by (eexists; exact D).
  apply is_derive_unique in D.
  unfold dfuncp. rewrite !(quiet_dgrec d s) by assumption. rewrite !(quiet_GR d s) by assumption. rewrite <- !D. clear D.
  unfold flux_p, p, Cp in *. unfold Rminus in *.
  destruct u; destruct right; cbn [setu valu o_Fp o_Psi o_Fn] in *; eqbs;
    (auto_derive; [repeat split; try tauto; try exact Ex|]); unfold Rminus in *; change (Derive (fun x : R => Z x)) with (Derive Z); field; repeat split; assumption.
Qed.

(** C131: without recombination and light (and away from the series of Z) the rows of the
    continuity equations are exact too. *)
Theorem C131_continuity_partial : forall d s w k u side, quiet d -> (0 < k < d_M d)%nat -> (side <= 2)%nat -> d_b d <> 0 -> d_dX d k <> 0 -> d_dX d (k - 1) <> 0 ->
  tiny < Rabs (Cn d s (k + 1) - Cn d s k) -> tiny < Rabs (Cn d s k - Cn d s (k - 1)) ->
  tiny < Rabs (Cp d s (k + 1) - Cp d s k) -> tiny < Rabs (Cp d s k - Cp d s (k - 1)) ->
  is_derive (fun t => f_electron d (setu u (k - 1 + side) t s) w k) (valu u (k - 1 + side) s) (J_electron d s k u side) /\
  is_derive (fun t => f_hole d (setu u (k - 1 + side) t s) w k) (valu u (k - 1 + side) s) (J_hole d s k u side).
Proof.
  intros d s w k u side Q Hk Hs Nb N1 N2 T1 T2 T3 T4. destruct k as [|k]; [lia|]. replace (S k - 1)%nat with k in * by lia. replace (S k + 1)%nat with (S (S k)) in * by lia.
  pose proof (fun right => flux_n_derive d s u right k Q Nb N2) as A. pose proof (fun right => flux_n_derive d s u right (S k) Q Nb N1) as A'.
  pose proof (fun right => flux_p_derive d s u right k Q Nb N2) as B. pose proof (fun right => flux_p_derive d s u right (S k) Q Nb N1) as B'.
  replace (k + 1)%nat with (S k) in * by lia. replace (S k + 1)%nat with (S (S k)) in * by lia.
  pose proof (fun r => A r T2) as A0. pose proof (fun r => A' r T1) as A1. pose proof (fun r => B r T4) as B0. pose proof (fun r => B' r T3) as B1. clear A A' B B'.
  assert (E : forall t, f_electron d (setu u (k + side) t s) w (S k) = flux_n d (setu u (k + side) t s) k - flux_n d (setu u (k + side) t s) (S k)).
  { intros t. unfold f_electron, funcn. rewrite (proj2 (Nat.eqb_neq (S k) 0)), (proj2 (Nat.eqb_neq (S k) (d_M d))) by lia. replace (S k - 1)%nat with k by lia.
    rewrite !quiet_GR by assumption. ring. }
  assert (H : forall t, f_hole d (setu u (k + side) t s) w (S k) = flux_p d (setu u (k + side) t s) k - flux_p d (setu u (k + side) t s) (S k)).
  { intros t. unfold f_hole, funcp. rewrite (proj2 (Nat.eqb_neq (S k) 0)), (proj2 (Nat.eqb_neq (S k) (d_M d))) by lia. replace (S k - 1)%nat with k by lia.
    rewrite !quiet_GR by assumption. ring. }
  assert (Hside : side = 0%nat \/ side = 1%nat \/ side = 2%nat) by lia.
  split; (eapply is_derive_ext; [intros t; symmetry; first [apply E | apply H]|]); destruct Hside as [-> | [-> | ->]]; unfold J_electron, J_hole; replace (S k - 1)%nat with k by lia; rewrite ?quiet_dgrec by assumption;
    replace (k + 0)%nat with k by lia; replace (k + 1)%nat with (S k) by lia; replace (k + 2)%nat with (S (S k)) by lia.
  - eapply is_derive_ext; [intros t; rewrite (flux_n_other d s u k (S k) t) by lia; reflexivity|].
    replace (dfuncn d s u false k + 0) with (dfuncn d s u false k - 0) by ring. apply (is_derive_minus (fun t => flux_n d (setu u k t s) k) (fun _ => flux_n d s (S k))); [apply (A0 false)|apply (is_derive_const (flux_n d s (S k)))].
  - rewrite Rplus_0_r. apply (is_derive_minus (fun t => flux_n d (setu u (S k) t s) k) (fun t => flux_n d (setu u (S k) t s) (S k))); [apply (A0 true)|apply (A1 false)].
  - eapply is_derive_ext; [intros t; rewrite (flux_n_other d s u (S (S k)) k t) by lia; reflexivity|].
    replace (- dfuncn d s u true (S k)) with (0 - dfuncn d s u true (S k)) by ring. apply (is_derive_minus (fun _ => flux_n d s k) (fun t => flux_n d (setu u (S (S k)) t s) (S k))); [apply (is_derive_const (flux_n d s k))|apply (A1 true)].
  - eapply is_derive_ext; [intros t; rewrite (flux_p_other d s u k (S k) t) by lia; reflexivity|].
    apply (is_derive_minus (fun t => flux_p d (setu u k t s) k) (fun _ => flux_p d s (S k))); [apply (B0 false)|apply (is_derive_const (flux_p d s (S k)))].
  - rewrite Rminus_0_r. apply (is_derive_minus (fun t => flux_p d (setu u (S k) t s) k) (fun t => flux_p d (setu u (S k) t s) (S k))); [apply (B0 true)|apply (B1 false)].
  - eapply is_derive_ext; [intros t; rewrite (flux_p_other d s u (S (S k)) k t) by lia; reflexivity|].
    replace (- dfuncp d s u true (S k)) with (0 - dfuncp d s u true (S k)) by ring. apply (is_derive_minus (fun _ => flux_p d s k) (fun t => flux_p d (setu u (S (S k)) t s) (S k))); [apply (is_derive_const (flux_p d s k))|apply (B1 true)].
Qed.
(** Three nodes with a step of one thermal voltage between neighbours. *)
Definition two_dev (rad : R) : dev :=
  mkDev 2 (fun _ => 1) 1 (fun _ => 0) (fun _ => 0) (fun _ => 1) (fun _ => 1) (fun _ => 1) (fun _ => 1) (fun _ => 1)
    (fun _ => 1) (fun _ => 1) (fun _ => 1) (fun _ => 1) (fun _ => 1) (fun _ => 1) (fun _ => 0) (fun _ => 0) 0 rad 0.
Lemma two_ni r k : ni (two_dev r) k = 1.
Proof. unfold ni. cbn. rewrite <- Ropp_mult_distr_l, Rmult_0_r, Ropp_0, exp_0, !Rmult_1_r. apply sqrt_1. Qed.
Lemma two_Vn r k : Vn (two_dev r) k = 0.
Proof. unfold Vn. cbn. replace (1 / 1) with 1 by lra. rewrite ln_1. lra. Qed.
Lemma two_Vp r k : Vp (two_dev r) k = 0.
Proof. unfold Vp. cbn. replace (1 / 1) with 1 by lra. rewrite ln_1. lra. Qed.
Example C131_example : quiet (two_dev 0) /\ (0 < 1 < d_M (two_dev 0))%nat /\
  forall k, tiny < Rabs (Cn (two_dev 0) ramp_pot (k + 1) - Cn (two_dev 0) ramp_pot k) /\ tiny < Rabs (Cp (two_dev 0) ramp_pot (k + 1) - Cp (two_dev 0) ramp_pot k).
Proof.
  split; [repeat split|]. split; [cbn; lia|]. intros k. unfold Cn, Cp. rewrite !two_Vn, !two_Vp. cbn [two_dev d_mun d_mup ramp_pot o_Psi].
  replace (1 / 1) with 1 by lra. rewrite ln_1, plus_INR. cbn [INR].
  split; match goal with |- _ < Rabs ?x => replace x with 1 by ring end; rewrite Rabs_R1; unfold tiny; lra.
Qed.
(** With radiative recombination the row is not the derivative: the derivatives of the
    sheet rates are weighted by Y as if the rates were split between the nodes, which the
    residual does not do. *)
Theorem C131_continuity_refuted : exists d s w k u side l, (0 < k < d_M d)%nat /\ (side <= 2)%nat /\
  is_derive (fun t => f_electron d (setu u (k - 1 + side) t s) w k) (valu u (k - 1 + side) s) l /\ 0 < l /\ J_electron d s k u side = l / 2.
Proof.
  exists (two_dev 1), (mkPot (fun _ => 0) (fun _ => 0) (fun _ => 0)), one_bnd, 1%nat, UFp, 2%nat, (dd_q / 2).
  pose proof dd_q_pos as Pq. split; [cbn; lia|]. split; [lia|].
  set (s := mkPot (fun _ => 0) (fun _ => 0) (fun _ => 0)). set (d := two_dev 1).
  assert (N : forall t k, n d (setu UFp 2 t s) k = 1).
  { intros t k. unfold n, d. rewrite two_ni, two_Vn. cbn [setu s o_Psi o_Fn]. rewrite Rminus_0_r, Rplus_0_r, exp_0. ring. }
  assert (Pp : forall t k, p d (setu UFp 2 t s) k = if (k =? 2)%nat then exp t else 1).
  { intros t k. unfold p, d. rewrite two_ni, two_Vp. cbn [setu s o_Psi o_Fp]. destruct (k =? 2)%nat; rewrite ?Rplus_0_r, ?Ropp_0, ?Rplus_0_l, ?exp_0; ring. }
  split; [|split; [lra|]].
  - apply (is_derive_ext (fun t => dd_q / 2 * (exp t - 1))).
    + intros t. unfold f_electron. change (1 =? 0)%nat with false. change (1 =? d_M d)%nat with false. cbv iota. cbn [Nat.add Nat.sub].
      unfold funcn, GR, Rsrh, Rrad, Raug, urec, uaug, urad. rewrite !N, !Pp. cbn [Nat.add Nat.eqb]. unfold d. rewrite !two_ni. fold d.
      assert (Fl : forall j, flux_n d (setu UFp 2 t s) j = 0).
      { intros j. unfold flux_n. cbn [setu s o_Fn]. rewrite Rminus_0_r, exp_0. ring. }
      rewrite !Fl. unfold d. cbn [two_dev d_SRH d_RAD d_AUG d_G d_brad d_dX]. match goal with |- @eq _ ?a ?b => change (@eq R a b) end. unfold Rdiv. ring.
    + change (is_derive (fun t : R => dd_q / 2 * (exp t - 1)) 0 (dd_q / 2)). auto_derive; [trivial|]. rewrite exp_0. field.
  - unfold J_electron, dfuncn, dgrec, dg_p. cbn [Nat.add]. 
    assert (C : Cn d s 2 - Cn d s 1 = 0) by (unfold Cn, d; rewrite !two_Vn; cbn; ring). rewrite C.
    assert (Y0 : Y 0 = 5 / 10) by (unfold Y; rewrite Rabs_R0; destruct (Rlt_dec 0 tiny) as [_|X]; [lra|exfalso; apply X; apply tiny_pos]). rewrite Y0.
    assert (N2 : n d s 2 = 1) by (unfold n, d; rewrite two_ni, two_Vn; cbn [s o_Psi o_Fn]; rewrite Rminus_0_r, Rplus_0_r, exp_0; ring).
    assert (P2 : p d s 2 = 1) by (unfold p, d; rewrite two_ni, two_Vp; cbn [s o_Psi o_Fp]; rewrite Ropp_0, !Rplus_0_r, exp_0; ring).
    rewrite N2, P2. unfold d. cbn [two_dev d_SRH d_RAD d_AUG d_brad d_dX]. unfold Rdiv. ring_simplify. field.
Qed.
(** The derivatives of the sheet rates themselves are exact: only their weights are not. *)
Theorem C131_rates : forall d s u k (right : bool), let j := if right then (k + 1)%nat else k in
  srh_term d s k <> 0 -> srh_term d s (k + 1) <> 0 -> d_brad d (k + 1) = d_brad d k ->
  is_derive (fun t => GR d (setu u j t s) k) (valu u j s) (dgrec d s u k j).
Proof.
  intros d s u k right j N1 N2 Eb. unfold GR, Rsrh, Rrad, Raug, urec, uaug, urad, dgrec, dg_p, dg_psi, dg_n, urec, urad, srh_term in *. unfold n, p in *. unfold j. clear j.
  destruct right; destruct u; cbn [setu valu o_Fp o_Psi o_Fn] in *; eqbs; rewrite ?Eb;
    (auto_derive; [repeat split; try tauto|]); unfold Rminus in *; field; repeat split; assumption.
Qed.
Example C131_rates_example : let d := two_dev 1 in let s := ramp_pot in
  is_derive (fun t => GR d (setu UFp 2 t s) 1) (valu UFp 2 s) (dgrec d s UFp 1 2).
Proof.
  intros d s. assert (P : forall k, srh_term d s k <> 0).
  { intros k. unfold srh_term, n, p, d. rewrite !two_ni. cbn [two_dev d_tn d_tp]. pose proof (exp_pos (o_Psi s k - o_Fn s k + Vn (two_dev 1) k)). pose proof (exp_pos (- o_Psi s k + o_Fp s k + Vp (two_dev 1) k)). lra. }
  apply (C131_rates d s UFp 1 true); [apply P|apply P|reflexivity].
Qed.

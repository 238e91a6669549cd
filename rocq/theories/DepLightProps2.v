(** Further properties of photocurrents of the depletion approximation, C186. *)
From Coq Require Import Reals Lra Lia String List Bool Arith.
From Coquelicot Require Import Coquelicot.
From Verif Require Import Common PhysConst NpModel DetBalModel DepletionModel DepletionProps2 DepletionProps3 DepLightModel DepLightProps.
From Verif Require QwUnitModel QwUnitProps QwUnitProps4.
From Coq Require Import List.
Import ListNotations.
Open Scope R_scope.
Open Scope list_scope.

Lemma nearest_spec wl v : wl <> [] -> let e := QwUnitModel.nearest wl v in
  (e < length wl)%nat /\ forall w, In w wl -> Rabs (nth e wl 0 - v) <= Rabs (w - v).
Proof.
  intros NE e. unfold e. destruct wl as [|x wl]; [contradiction|]. cbn [QwUnitModel.nearest].
  destruct (QwUnitProps4.nearest_from_spec v wl 1 0 (Rabs (x - v)) (fun i d => (i < length (x :: wl))%nat /\ d = Rabs (nth i (x :: wl) 0 - v))) as (d' & (A & B) & C & D).
  - cbn. split; [lia|reflexivity].
  - intros j y Hj. cbn [Nat.add nth length]. assert (j < length wl)%nat by (apply nth_error_Some; now rewrite Hj). split; [lia|]. now rewrite (nth_error_nth wl j 0 Hj).
  - split; [exact A|]. intros w [<-|Hw]; rewrite <- B; [exact C|now apply D].
Qed.
(** * Currents under light *)
(** Light shifts the current of every voltage by the same amount, which has the sign that makes power: the
    photocurrents reported for the three regions. *)
Theorem C186_superposition (one : bool) (pol : polarity) (p : dep_par) (l : place) (gen : R -> R) (vs : list R) :
  fits pol p l -> sane p -> good p -> vs <> [] -> (forall z, continuous gen z) -> (forall z, 0 <= gen z) ->
  let j := light_terms one pol p l gen vs in
  0 <= fst (fst j) /\ 0 <= snd (fst j) /\ 0 <= snd j
  /\ forall v, light_current one pol p l gen vs v
    = option_map (fun d => let J := fst (fst j) + snd (fst j) + snd j in match pol with PN => d - J | NP => d + J end) (dark_current one pol p v).
Proof.
  intros HF HS HG HN Hc Hg j.
  assert (HV : reference_bias pol p vs <= built_in p).
  { unfold reference_bias. cbv zeta. set (Vs := map (internal_bias pol p) vs).
    assert (NV : Vs <> []) by (unfold Vs; destruct vs; [contradiction|discriminate]).
    destruct (nearest_spec Vs 0 NV) as [HL _].
    assert (I := nth_In Vs 0 HL). destruct (proj1 (in_map_iff _ _ _) I) as [v [E _]]. rewrite <- E.
    unfold internal_bias, clamp_bias. destruct (Rlt_dec _ _); lra. }
  set (V0 := reference_bias pol p vs) in *.
  assert (Q := q_pos).
  assert (P : 0 <= fst (fst j) /\ 0 <= snd (fst j) /\ 0 <= snd j).
  { destruct (C186_regions one pol p l V0 HF HS HV) as (_ & _ & _ & _ & R5 & R6 & R7 & _).
    unfold j, light_terms. fold V0. cbn [fst snd].
    split; [|split]; (apply Rmult_le_pos; [lra|]); unfold photocurrents; cbn [fst snd].
    - rewrite (surjective_pairing (top_edges _ _)). apply diffusion_bounds; try assumption; try lra; destruct HG as (G1 & G2 & G3 & G4 & G5 & G6); destruct pol; assumption.
    - rewrite (surjective_pairing (bottom_edges _ _)). apply diffusion_bounds; try assumption; try lra; destruct HG as (G1 & G2 & G3 & G4 & G5 & G6); destruct pol; assumption.
    - unfold scr_current. cbv zeta. destruct (open_facts _ _ R6) as [A [_ [_ _]]].
      apply np_trapz_nonneg; [apply map_length| |exact A].
      intros x Hx. apply in_map_iff in Hx. destruct Hx as [z [<- _]]. specialize (Hg z). lra. }
  destruct P as [P1 [P2 P3]]. repeat (split; [assumption|]).
  intro v. unfold light_current, dark_current. destruct (dark_terms one pol p v) as [[Jn Jp] Jrec]. fold j.
  destruct j as [[jt jb] js]. cbn [fst snd].
  destruct Jrec as [jr|]; [|reflexivity]. cbn [option_map]. f_equal. destruct pol; unfold pol_sign; ring.
Qed.
(** When zero is one of the voltages the photocurrents are those of the quantum efficiencies. *)
Theorem C186_reference (one : bool) (pol : polarity) (p : dep_par) (l : place) (gen : R -> R) (vs : list R) :
  (forall z, continuous gen z) -> / 1000 < built_in p -> In 0 vs ->
  let e := qe_depletion one pol p l gen in
  light_terms one pol p l gen vs = (q * eqe_emitter e, q * eqe_base e, q * eqe_scr e).
Proof.
  intros Hc HV H0 e. destruct (C186_efficiencies one pol p l gen Hc) as [F _]. fold e in F. rewrite <- (F 1) by lra.
  assert (R0 : reference_bias pol p vs = 0).
  { unfold reference_bias. cbv zeta. set (Vs := map (internal_bias pol p) vs).
    assert (Z : internal_bias pol p 0 = 0) by (unfold internal_bias, clamp_bias; rewrite Rmult_0_r; destruct (Rlt_dec _ _); lra).
    assert (I : In 0 Vs) by (rewrite <- Z; apply in_map, H0).
    destruct (nearest_spec Vs 0) as [_ N]; [intro E; rewrite E in I; exact I|].
    specialize (N 0 I). rewrite Rminus_0_r in N. rewrite Rminus_0_r, Rabs_R0 in N.
    destruct (Req_dec (nth (QwUnitModel.nearest Vs 0) Vs 0) 0) as [E|NE]; [exact E|]. apply Rabs_pos_lt in NE. lra. }
  unfold light_terms. rewrite R0. unfold qe_at. cbn [eqe_emitter eqe_base eqe_scr]. rewrite !Rdiv_1. reflexivity.
Qed.
(** * Witnesses *)
Definition pex (x : R) : dep_par :=
  {| p_xn := x; p_xp := x; p_xi := 0; p_sn := 0; p_sp := 0; p_ln := 1; p_lp := 1; p_dn := 1; p_dp := 1;
     p_Nd := 2; p_Na := 2; p_ni := 1; p_esn := q; p_esp := q; p_T := 300; p_Rsh := None; p_Vbi := Some 1 |}.
Definition lex (x : R) : place := mkPlace [1; x; x] 1 2.
Lemma fits_ex pol x : fits pol (pex x) (lex x).
Proof. unfold fits. cbn. repeat split; [lia|destruct pol; reflexivity|destruct pol; reflexivity|left; split; reflexivity]. Qed.
Lemma sane_ex x : 0 <= x -> sane (pex x).
Proof. intro H. assert (Q := q_pos). unfold sane. cbn. repeat split; lra. Qed.
Lemma good_ex x : good (pex x).
Proof. unfold good. cbn. repeat split; lra. Qed.
Lemma width_ex x V r : 0 <= r -> r <= x -> 1 - V = r * r -> depleted true (pex x) V = (r, r).
Proof.
  intros H0 H1 H2. assert (Q := q_pos). unfold depleted, get_depletion_widths. cbn [fst snd or_attr j_wn j_wp j_one_sided pex p_esn p_esp p_Na p_Nd p_xi p_xn p_xp].
  unfold wn_formula, wp_formula, built_in. cbn [p_Vbi pex].
  replace (2 * q * (1 - V) / (q * 2)) with (r * r) by (rewrite <- H2; field; lra). rewrite sqrt_square by exact H0.
  unfold clip_width. destruct (Rlt_dec x r); [lra|reflexivity].
Qed.
(** Every carrier generated in a depleted junction counts: refuted, one in 1001 is lost. *)
Theorem C186_depleted_refuted : exists one pol p l g0, fits pol p l /\ sane p /\ 0 < g0
  /\ depleted one p 0 = (p_xn p, p_xp p) /\ iqe (qe_depletion one pol p l (fun _ => g0)) < 1.
Proof.
  exists true, PN, (pex 1), (lex 1), 1. assert (W : depleted true (pex 1) 0 = (1, 1)) by (apply width_ex; lra).
  split; [apply fits_ex|]. split; [apply sane_ex; lra|]. split; [lra|]. split; [exact W|].
  destruct (C186_depleted true PN (pex 1) (lex 1) 1) as [E _]; [apply fits_ex|apply sane_ex; lra|cbn; lra|exact W|lra|cbn; lra|].
  rewrite E. lra.
Qed.
Lemma scr_ex V r : 0 <= r <= 2 -> 1 - V = r * r ->
  snd (photocurrents PN (pex 2) (lex 2) (depleted true (pex 2) V) (fun _ => 1) 1) = 2 * r * (1000 / 1001).
Proof.
  intros Hr HV. rewrite (width_ex 2 V r) by lra. unfold photocurrents, scr_edges. cbn [snd fst top_part bottom_part t_w lex l_widths l_top l_bottom].
  assert (K := scr_between (fun _ => 1) 1 (cum [1; 2; 2] 2 - r) (cum [1; 2; 2] 2 + r) 1 1 ltac:(lra) ltac:(lra) ltac:(intros; lra)). lra.
Qed.
(** The photocurrent of the depleted region, and with it the current at a voltage, does not depend on the other
    voltages asked for: refuted. *)
Theorem C186_voltages_refuted : exists one pol p l gen vs1 vs2 v,
  fits pol p l /\ sane p /\ good p /\ (forall z, 0 <= gen z) /\ In v vs1 /\ In v vs2
  /\ snd (light_terms one pol p l gen vs1) <> snd (light_terms one pol p l gen vs2).
Proof.
  exists true, PN, (pex 2), (lex 2), (fun _ => 1), [3 / 4], [3 / 4; 0], (3 / 4).
  split; [apply fits_ex|]. split; [apply sane_ex; lra|]. split; [apply good_ex|]. split; [intro; lra|].
  split; [left; reflexivity|]. split; [left; reflexivity|].
  assert (B : forall v, v < 999 / 1000 -> internal_bias PN (pex 2) v = v).
  { intros v Hv. unfold internal_bias, clamp_bias, built_in, pol_sign. cbn [pex p_Vbi]. rewrite Rmult_1_l. destruct (Rlt_dec _ _); lra. }
  assert (R1 : reference_bias PN (pex 2) [3 / 4] = 3 / 4) by (unfold reference_bias; cbn [map QwUnitModel.nearest QwUnitModel.nearest_from nth]; apply B; lra).
  assert (R2 : reference_bias PN (pex 2) [3 / 4; 0] = 0).
  { unfold reference_bias. cbn [map]. rewrite !B by lra. cbn [QwUnitModel.nearest QwUnitModel.nearest_from].
    destruct (Rlt_dec (Rabs (0 - 0)) (Rabs (3 / 4 - 0))) as [_|N]; [reflexivity|].
    exfalso. apply N. rewrite !Rminus_0_r, Rabs_R0. apply Rabs_pos_lt. lra. }
  unfold light_terms. rewrite R1, R2. cbn [snd]. rewrite (scr_ex (3 / 4) (1 / 2)) by lra. rewrite (scr_ex 0 1) by lra.
  assert (Q := q_pos). intro E. apply Rmult_eq_reg_l in E; lra.
Qed.
Example C186_superposition_ex : exists p l, fits PN p l /\ sane p /\ good p /\ / 1000 < built_in p
  /\ depleted true p 0 = (1, 1) /\ x_top PN p = 2
  /\ 0 < snd (light_terms true PN p l (fun _ => 1) [0; 1 / 2]).
Proof.
  exists (pex 2), (lex 2). split; [apply fits_ex|]. split; [apply sane_ex; lra|]. split; [apply good_ex|]. split; [cbn; lra|].
  split; [apply width_ex; lra|]. split; [reflexivity|].
  rewrite (C186_reference true PN (pex 2) (lex 2) (fun _ => 1) [0; 1 / 2]); [|intro; apply continuous_const|cbn; lra|left; reflexivity].
  cbn [snd]. destruct (C186_efficiencies true PN (pex 2) (lex 2) (fun _ => 1) (fun z => continuous_const 1 z)) as [F _].
  rewrite <- (F 1) by lra. unfold qe_at. cbn [eqe_scr]. rewrite (scr_ex 0 1) by lra. assert (Q := q_pos).
  apply Rmult_lt_0_compat; lra.
Qed.

(** * Parameters *)
Open Scope string_scope.
(** Without attributes on the junction, the minority carriers of either region are taken from its material. *)
Theorem C186_parameters (a : attrs) (T : R) (p n : region) (i : option region) (es_n es_p le lh me mh ni Na Nd : R) :
  r_mat n "permittivity" = Ok es_n -> r_mat p "permittivity" = Ok es_p ->
  r_mat p "electron_diffusion_length" = Ok le -> r_mat n "hole_diffusion_length" = Ok lh ->
  r_mat p "electron_mobility" = Ok me -> r_mat n "hole_mobility" = Ok mh ->
  r_mat n "ni" = Ok ni -> r_mat p "Na" = Ok Na -> r_mat n "Nd" = Ok Nd ->
  exists d, identify_parameters a T p n i = Ok d
  /\ p_xn d = r_width n /\ p_xp d = r_width p /\ p_xi d = match i with Some r => r_width r | None => 0 end
  /\ p_ni d = ni /\ p_Na d = Na /\ p_Nd d = Nd /\ p_T d = T
  /\ p_ln d = match a "ln" with Some x => x | None => le end /\ p_lp d = match a "lp" with Some x => x | None => lh end
  /\ p_dp d * q = kb * T * match a "mup" with Some x => x | None => me end
  /\ p_dn d * q = kb * T * match a "mun" with Some x => x | None => mh end
  /\ p_esn d = match a "permittivity" with Some x => x | None => es_n end
  /\ p_esp d = match a "permittivity" with Some x => x | None => es_p end
  /\ p_sn d = match a "sn" with Some x => x | None => 0 end /\ p_sp d = match a "sp" with Some x => x | None => 0 end
  /\ p_Vbi d = a "Vbi" /\ p_Rsh d = a "R_shunt".
Proof.
  intros E1 E2 E3 E4 E5 E6 E7 E8 E9. unfold identify_parameters, attr_or.
  rewrite E1, E2, E3, E4, E5, E6, E7, E8, E9. assert (Q := q_pos).
  destruct (a "permittivity"), (a "ln"), (a "lp"), (a "mup"), (a "mun"); cbn [bindR]; (eexists; split; [reflexivity|]; cbn;
    repeat split; field; lra).
Qed.
(** The intrinsic density of either region counts: refuted, that of the p region never does. *)
Theorem C186_intrinsic_refuted : exists a T p p2 n i d,
  r_width p = r_width p2 /\ (forall k, k <> "ni" -> r_mat p k = r_mat p2 k)
  /\ r_mat p "ni" = Ok 1 /\ r_mat p2 "ni" = Ok 2
  /\ identify_parameters a T p n i = Ok d /\ identify_parameters a T p2 n i = Ok d.
Proof.
  exists (fun _ => None), 300, (mkRegion 1 (fun _ => Ok 1)), (mkRegion 1 (fun k => if String.eqb k "ni" then Ok 2 else Ok 1)), (mkRegion 1 (fun _ => Ok 1)), None.
  eexists. split; [reflexivity|]. split; [intros k Hk; cbn; destruct (String.eqb_spec k "ni"); [contradiction|reflexivity]|].
  repeat split; reflexivity.
Qed.
Example C186_parameters_ex : exists d, identify_parameters (fun k => if String.eqb k "ln" then Some 7 else None) 300 (mkRegion 1 (fun _ => Ok 3)) (mkRegion 2 (fun _ => Ok 5)) None = Ok d
  /\ p_ln d = 7 /\ p_lp d = 5 /\ p_Na d = 3 /\ p_Nd d = 5 /\ p_xp d = 1.
Proof. eexists. split; [reflexivity|]. repeat split; reflexivity. Qed.
Close Scope string_scope.

(** * Collection in long regions *)
Lemma long_current g ph t a b sd : 0 <= ph -> 0 < t_d t -> 0 < t_l t -> (forall z, continuous g z) -> (forall z, 0 <= g z) ->
  let m := b - (b - a) / 1001 in 100 < (m - a) / t_l t ->
  diffusion_current g ph t (a, b) sd =
    ph * RInt (fun x => exp (- (x - a) / t_l t) * g (match sd with Top => a + m - x | Bottom => x end)) a m.
Proof.
  intros Hp HD HL Hc Hg m Hm. unfold diffusion_current. cbn [fst snd]. fold m. unfold green_cp, green_integrand. cbv zeta. destruct (Rlt_dec 100 ((m - a) / t_l t)) as [_|n]; [|contradiction].
  assert (Ham : a <= m). { destruct (Rle_dec a m) as [h|h]; [exact h|exfalso]. assert (0 < / t_l t) by (apply Rinv_0_lt_compat; exact HL). assert ((m - a) * / t_l t <= 0) by nra. unfold Rdiv in Hm; lra. }
  set (u := fun x => match sd with Top => a + m - x | Bottom => x end).
  set (f := fun x => exp (- (x - a) / t_l t) * g (u x)).
  assert (Cf : forall x, continuous f x).
  { intros x. unfold f. apply (continuous_mult (K := R_AbsRing)).
    - apply (ex_derive_continuous (V := R_NormedModule)). unfold Rdiv. auto_derive. exact I.
    - apply continuous_comp; [|apply Hc]. apply (ex_derive_continuous (V := R_NormedModule)). unfold u. destruct sd; auto_derive; exact I. }
  assert (Ef : ex_RInt f a m) by (apply (ex_RInt_continuous (V := R_CompleteNormedModule)); intros; apply Cf).
  assert (P : 0 <= RInt f a m).
  { apply RInt_ge_0; [exact Ham|exact Ef|]. intros x _. unfold f. apply Rmult_le_pos; [left; apply exp_pos|apply Hg]. }
  set (c := match sd with Top => - (ph / t_d t) | Bottom => ph / t_d t end).
  assert (E : RInt (match sd with Top => conv_exp_top a m g (t_l t) (ph / t_d t) | Bottom => conv_exp_bottom a g (t_l t) (ph / t_d t) end) a m = c * RInt f a m).
  { transitivity (RInt (fun x => scal c (f x)) a m).
    - apply RInt_ext. intros x _. unfold scal; cbn; unfold mult; cbn. unfold f, u, c. replace (- (x - a) / t_l t) with ((a - x) / t_l t) by (unfold Rdiv; ring).
      destruct sd; unfold conv_exp_top, conv_exp_bottom; ring.
    - apply (RInt_scal (V := R_CompleteNormedModule)). exact Ef. }
  transitivity (t_d t * Rabs (c * RInt f a m / 1)); [apply f_equal, f_equal; apply (f_equal (fun y => y / 1)); exact E|]. unfold Rdiv at 1. rewrite Rinv_1, Rmult_1_r, Rabs_mult, (Rabs_pos_eq (RInt f a m) P).
  assert (H0 : 0 <= ph / t_d t) by (apply Rmult_le_pos; [exact Hp|left; apply Rinv_0_lt_compat; exact HD]).
  assert (Ec : Rabs c = ph / t_d t) by (unfold c; destruct sd; rewrite ?Rabs_Ropp; apply Rabs_pos_eq; exact H0).
  rewrite Ec. transitivity (ph * RInt f a m); [generalize (RInt f a m); intros y; field; lra|reflexivity].
Qed.
(** In regions longer than a hundred diffusion lengths a carrier at some distance from the depleted region is
    collected with the exponential of this distance over the diffusion length: in the emitter the distance is
    to its end, in the base to its start. *)
Theorem C186_sides (pol : polarity) (p : dep_par) (l : place) (w : R * R) (g : R -> R) (ph : R) :
  good p -> 0 <= ph -> (forall z, continuous g z) -> (forall z, 0 <= g z) ->
  let t := top_part pol p w in let b := bottom_part pol p w in let js := photocurrents pol p l w g ph in
  (forall x0 x1 m, top_edges l t = (x0, x1) -> m = x1 - (x1 - x0) / 1001 -> 100 < (m - x0) / t_l t ->
     fst (fst js) = ph * RInt (fun s => exp (- (s - x0) / t_l t) * g (m - (s - x0))) x0 m) /\
  (forall x0 x1 m, bottom_edges l b = (x0, x1) -> m = x1 - (x1 - x0) / 1001 -> 100 < (m - x0) / t_l b ->
     snd (fst js) = ph * RInt (fun s => exp (- (s - x0) / t_l b) * g (x0 + (s - x0))) x0 m).
Proof.
  intros (G1 & G2 & G3 & G4 & _) Hp Hc Hg t b js.
  assert (Dt : 0 < t_d t /\ 0 < t_l t) by (unfold t; destruct pol; cbn; auto). assert (Db : 0 < t_d b /\ 0 < t_l b) by (unfold b; destruct pol; cbn; auto).
  split; intros x0 x1 m e -> h; unfold js, photocurrents; fold t b; cbn [fst snd]; rewrite e, long_current; try tauto; f_equal;
    apply RInt_ext; intros x _; f_equal; f_equal; lra.
Qed.
(** The base of 1001 lengths below: carriers count less with depth, so that those made at its end are lost. *)
Example C186_sides_ex : let p := mkPart 0 1 0 1 in 100 < (1001 - (1001 - 0) / 1001 - 0) / t_l p /\
  diffusion_current (fun _ => 1) 1 p (0, 1001) Bottom = 1 - exp (- 1000).
Proof.
  cbv zeta. cbn [t_l]. split; [lra|]. rewrite long_current; cbn [t_d t_l]; try lra; [|intros; apply continuous_const|intros; lra].
  rewrite Rmult_1_l. apply is_RInt_unique. replace (1 - exp (-1000)) with (minus (- exp (- (1001 - (1001 - 0) / 1001))) (- exp (- 0))).
  2:{ unfold minus, plus, opp; cbn. rewrite Ropp_0, exp_0. replace (- (1001 - (1001 - 0) / 1001)) with (-1000) by field. lra. }
  apply (is_RInt_derive (V := R_CompleteNormedModule) (fun x => - exp (- x))).
  - intros x _. auto_derive; [exact I|]. unfold Rdiv. rewrite Rinv_1. replace (- (x - 0) * 1) with (- x) by ring. ring.
  - intros x _. apply (ex_derive_continuous (V := R_NormedModule)). unfold Rdiv. auto_derive. exact I.
Qed.

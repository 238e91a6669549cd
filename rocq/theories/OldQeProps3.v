(** C179: what does not hold of QE.py, and examples. *)
From Coq Require Import Reals String List Arith Bool Lra Lia.
From Coquelicot Require Import Coquelicot.
From Coq Require Import List.
From Verif Require Import Common PhysConst NumModel NpModel DetBalModel DepletionProps DepletionProps2 DepletionProps3.
From Verif Require Import OldQeModel OldQeProps OldQeProps2.
Import ListNotations.
Open Scope R_scope.
Open Scope list_scope.

(** A p-type emitter on an n-type base, behind a window, in units of the absorption length. *)
Definition p_mat (L : R) : qmat := QM 300 (2 / 10 ^ 19) 12 L 1 1 1 1 1 (Some 1) None (fun _ => 1).
Definition n_mat (L : R) : qmat := QM 300 (2 / 10 ^ 19) 12 1 L 1 1 1 1 None (Some 1) (fun _ => 1).
Definition layers (L : R) : list qlayer :=
  [QL (1 / 10) "window" (p_mat L); QL 1 "emitter" (p_mat L); QL 2 "base" (n_mat L); QL 1 "back" (n_mat L)]%string.
Definition plain (L : R) : junction :=
  QJ (layers L) None None (Some 1) None None None None (Some 1) false (Some (1 / 10)) (Some (1 / 10)).
Definition pn (L : R) : regions := Regions false (QL 2 "base" (n_mat L)) None (QL 1 "emitter" (p_mat L)).
Lemma plain_regions L : find_regions (qj_layers (plain L)) = Ok (pn L).
Proof. unfold plain. cbn [qj_layers].
  assert (S0 : stacked (layers L) (QL 1 "emitter" (p_mat L)) None (QL 2 "base" (n_mat L))).
  { exists [QL (1 / 10) "window" (p_mat L)], [QL 1 "back" (n_mat L)]. split; [reflexivity|]. split; [intros x [<-|[]]; discriminate|].
    split; [reflexivity|]. split; [discriminate|reflexivity]. }
  rewrite (find_complete _ _ _ _ S0). unfold assign, is_np. cbn [ql_mat p_mat qm_Na qm_Nd orelse]. destruct (Rlt_dec 1 0); [lra|reflexivity]. Qed.
Lemma plain_pars L V : exists p, parameters (plain L) (pn L) V = Ok p.
Proof. unfold parameters. cbn [pn g_n g_p ql_mat p_mat n_mat qm_Na qm_Nd attribute bindR]. eexists. reflexivity. Qed.
Lemma plain_sound L V p : 0 < L -> parameters (plain L) (pn L) V = Ok p -> sound (pn L) p.
Proof. intros HL Hp. assert (Hk := kb_pos). assert (Hq := q_pos).
  destruct (C179_parameters _ _ _ _ Hp) as (P1 & P2 & P3 & P4 & P5 & P6 & P7 & P8 & P9 & (mu & M1 & M2) & (mu' & M3 & M4) & P12 & _ & P14).
  unfold widths in P14. cbn [plain qj_onesided qj_wn qj_wp orelse] in P14. injection P14 as W1 W2.
  cbn [given plain qj_sn qj_sp qj_ln qj_lp qj_mup qj_mun pn g_n g_p g_i ql_mat ql_width p_mat n_mat qm_ln qm_lp qm_mue qm_muh qm_T] in *.
  unfold sound. rewrite P3, P4, P5, P6, P7, P8, P9, W1, W2, M2, M4. cbn [pn g_n g_p g_i ql_width].
  assert (KT : 0 < kb * 300 / q) by (apply Rdiv_lt_0_compat; lra).
  assert (AN : 0 < mu * (kb * 300 / q)) by (rewrite M1; lra). assert (AP : 0 < mu' * (kb * 300 / q)) by (rewrite M3; lra).
  repeat split; try lra. intros x E Hx. cbn [parts pn g_np g_i g_n g_p app] in Hx. destruct Hx as [<-|[<-|[]]]; cbn; lra. Qed.
Lemma plain_result L V ls : exists o, calculate_junction_sr (plain L) ls V = Ok o.
Proof. unfold calculate_junction_sr. rewrite plain_regions. cbn [bindR]. destruct (plain_pars L V) as [p Hp]. rewrite Hp. eexists. reflexivity. Qed.

(** * Refuted *)
(** Reflected, lost and transmitted light are parts of the light. False: the passive loss is that
    of light that has been neither reflected nor shaded, and together they are more than one. *)
Theorem C179_passive_refuted : exists c r a b d, spectral_response c None (Some [1]) 0 = Ok r
  /\ s_reflected_fraction r = [Some a] /\ s_passive_loss r = [b] /\ s_transmitted_fraction r = [Some d]
  /\ 0 < a < 1 /\ 0 < b < 1 /\ 0 < d /\ 1 < a + b.
Proof. exists (Cell [ELayer (QL 1 "AR" (p_mat 2))] None (Some (fun _ => 1 / 2))).
  assert (E1 : 2 < exp 1) by (assert (X := exp_ineq1 1 ltac:(lra)); lra).
  assert (E2 : 0 < exp (-1) < 1 / 2).
  { split; [apply exp_pos|]. replace (-1) with (- (1)) by ring. rewrite exp_Ropp. apply (Rmult_lt_reg_r (exp 1)); [lra|]. rewrite Rinv_l by lra. lra. }
  assert (E3 : exp (- (1) * 1) = exp (-1)) by (f_equal; ring).
  unfold spectral_response. cbn [c_elements walk incoming map entering c_shading c_reflectivity orelse bindR fst snd through_passive transmission
    l_E l_bs l_b0 l_pass ql_mat ql_width p_mat qm_alpha reflected]. unfold quot. destruct (Req_EM_T 1 0); [lra|].
  do 4 eexists. split; [reflexivity|]. cbn [s_reflected_fraction s_passive_loss s_transmitted_fraction].
  split; [reflexivity|]. split; [reflexivity|]. split; [reflexivity|]. cbv beta.
  unfold transmission. cbn [ql_mat ql_width p_mat qm_alpha]. rewrite E3. lra. Qed.
(** The depleted regions take up the voltage with the permittivity of the material. False: it is
    multiplied by that of the vacuum twice, and they take up less than 1e-11 of the voltage. *)
Theorem C179_permittivity_refuted : exists j g, find_regions (qj_layers j) = Ok g /\ qj_es j = None /\
  forall V p, V < 1 -> parameters j g V = Ok p ->
  q * r_Nd p * r_wn p / permittivity (ql_mat (g_n g)) * (r_wn p / 2 + r_xi p + r_wp p / 2) < r_Vbi p / 10 ^ 11.
Proof. exists (QJ (layers 2) None None None None None None None (Some 1) false None None), (pn 2).
  split; [exact (plain_regions 2)|]. split; [reflexivity|]. intros V p HV Hp.
  assert (Hv := vacuum_permittivity_pos).
  assert (Vs : vacuum_permittivity < 1 / 10 ^ 11) by (with_strategy transparent [vacuum_permittivity] unfold vacuum_permittivity; lra).
  assert (Es : r_es p = 12 * vacuum_permittivity * vacuum_permittivity).
  { unfold parameters in Hp. cbn [pn g_n g_p ql_mat p_mat n_mat qm_Na qm_Nd attribute bindR] in Hp. apply ok_inj in Hp. rewrite <- Hp. reflexivity. }
  destruct (C179_parameters _ _ _ _ Hp) as (P1 & P2 & P3 & P4 & P5 & P6 & P7 & P8 & P9 & _ & _ & P12 & (Vb & G1 & G2 & G3 & G4) & P14).
  cbn [pn g_n g_p g_i ql_mat p_mat n_mat qm_Na qm_Nd qj_Vbi given] in *. injection P1 as P1. injection P2 as P2.
  assert (Vp : 0 < r_Vbi p) by (rewrite G3, G2, G1; unfold Rmin; destruct (Rle_dec 1 V); lra).
  assert (Es0 : 0 < r_es p) by (rewrite Es; apply Rmult_lt_0_compat; lra).
  assert (D := C179_depletion (QJ (layers 2) None None None None None None None (Some 1) false None None) (r_es p) (r_xi p) (r_Na p) (r_Nd p) (r_Vbi p)
    eq_refl eq_refl eq_refl Es0 ltac:(rewrite P5; lra) ltac:(lra) ltac:(lra) ltac:(lra)).
  cbv zeta in D. rewrite <- P14 in D. cbn [fst snd] in D. destruct D as (_ & _ & _ & D). unfold permittivity. cbn [n_mat qm_eps].
  replace (q * r_Nd p * r_wn p / (12 * vacuum_permittivity) * (r_wn p / 2 + r_xi p + r_wp p / 2))
    with (q * r_Nd p * r_wn p / r_es p * (r_wn p / 2 + r_xi p + r_wp p / 2) * vacuum_permittivity) by (rewrite Es; field; lra).
  rewrite D. unfold Rdiv. apply Rmult_lt_compat_l; lra. Qed.
(** There is a current at every voltage, those above the built-in one being replaced by it. False:
    it is not a number from there on. *)
Theorem C179_forward_refuted : exists j, qj_Vbi j = Some 1 /\
  forall V ls, 1 <= V -> exists o, calculate_junction_sr j ls V = Ok o /\ o_J o = None.
Proof. exists (plain 2). split; [reflexivity|]. intros V ls HV. unfold calculate_junction_sr. rewrite plain_regions. cbn [bindR].
  destruct (plain_pars 2 V) as [p Hp]. rewrite Hp. cbn [bindR]. eexists. split; [reflexivity|].
  destruct (C179_parameters _ _ _ _ Hp) as (_ & _ & _ & _ & _ & _ & _ & _ & _ & _ & _ & P12 & (Vb & G1 & G2 & G3 & G4) & _).
  cbn [plain qj_Vbi given] in G1. subst Vb. rewrite Rmin_left in G2 by lra. unfold collect. cbv zeta. cbn [o_J].
  rewrite (proj2 (C179_recombination p ltac:(rewrite P12; cbn; lra))); [reflexivity|lra]. Qed.
(** The arrays of a junction have the energies of the cell. False: those where the absorption
    length is a diffusion length are left out. *)
Theorem C179_dropped_refuted : exists j, (forall V, exists o, calculate_junction_sr j [Light 1 1 1 1; Light 2 1 1 1] V = Ok o /\ o_e o = [2])
  /\ exists V, forall g p, find_regions (qj_layers j) = Ok g -> parameters j g V = Ok p -> sound g p.
Proof.
  set (pm := QM 300 (2 / 10 ^ 19) 12 3 1 1 1 1 1 (Some 1) None (fun E => E * E)).
  set (n' := QM 300 (2 / 10 ^ 19) 12 1 1 1 1 1 1 None (Some 1) (fun E => E * E)).
  set (ly := [QL 1 "emitter" pm; QL 2 "base" n']%string).
  set (j := QJ ly None None (Some 1) None None None None (Some 1) false (Some (1 / 10)) (Some (1 / 10))).
  set (g0 := Regions false (QL 2 "base" n') None (QL 1 "emitter" pm)).
  assert (Hg : find_regions (qj_layers j) = Ok g0).
  { assert (S0 : stacked ly (QL 1 "emitter" pm) None (QL 2 "base" n')).
    { exists [], []. split; [reflexivity|]. split; [intros x []|]. split; [reflexivity|]. split; [discriminate|reflexivity]. }
    change (qj_layers j) with ly. rewrite (find_complete _ _ _ _ S0). unfold assign, is_np. cbn [ql_mat pm qm_Na qm_Nd orelse]. destruct (Rlt_dec 1 0); [lra|reflexivity]. }
  assert (Sd : forall V p, parameters j g0 V = Ok p -> sound g0 p /\ r_lp p = 1 /\ r_ln p = 3).
  { intros V p Hp. assert (Hk := kb_pos). assert (Hq := q_pos).
    destruct (C179_parameters _ _ _ _ Hp) as (P1 & P2 & P3 & P4 & P5 & P6 & P7 & P8 & P9 & (mu & M1 & M2) & (mu' & M3 & M4) & P12 & _ & P14).
    unfold widths in P14. cbn [j qj_onesided qj_wn qj_wp orelse] in P14. injection P14 as W1 W2.
    cbn [given j qj_sn qj_sp qj_ln qj_lp qj_mup qj_mun g0 g_n g_p g_i ql_mat ql_width pm n' qm_ln qm_lp qm_mue qm_muh qm_T] in *.
    split; [|split; assumption].
    unfold sound. rewrite P3, P4, P5, P6, P7, P8, P9, W1, W2, M2, M4. cbn [g0 g_n g_p g_i ql_width].
    assert (KT : 0 < kb * 300 / q) by (apply Rdiv_lt_0_compat; lra).
    assert (AN : 0 < mu * (kb * 300 / q)) by (rewrite M1; lra). assert (AP : 0 < mu' * (kb * 300 / q)) by (rewrite M3; lra).
    repeat split; try lra. intros x E Hx. cbn [parts g0 g_np g_i g_n g_p app] in Hx. destruct Hx as [<-|[<-|[]]]; cbn; nra. }
  exists j. split.
  - intro V. unfold calculate_junction_sr at 1. 
    assert (Hp : exists p, parameters j g0 V = Ok p) by (unfold parameters; cbn [g0 g_n g_p ql_mat pm n' qm_Na qm_Nd attribute bindR]; eexists; reflexivity).
    destruct Hp as [p Hp]. destruct (Sd V p Hp) as (S1 & S2 & S3).
    assert (Ho : calculate_junction_sr j [Light 1 1 1 1; Light 2 1 1 1] V = Ok (collect g0 p [Light 1 1 1 1; Light 2 1 1 1])).
    { unfold calculate_junction_sr. rewrite Hg. cbn [bindR]. rewrite Hp. reflexivity. }
    exists (collect g0 p [Light 1 1 1 1; Light 2 1 1 1]). split; [rewrite Hg; cbn [bindR]; rewrite Hp; reflexivity|].
    destruct (C179_junction_partial _ _ _ _ _ _ Ho Hg Hp S1 ltac:(intros l [<-|[<-|[]]]; cbn; lra)) as (K1 & _ & _).
    rewrite K1. unfold kept. cbn [filter l_E]. unfold resonant. rewrite S2, S3. cbn [g0 g_n g_p ql_mat pm n' qm_alpha].
    destruct (Req_EM_T (1 * 1 * 1) 1) as [_|N]; [|exfalso; apply N; ring]. cbn [negb].
    destruct (Req_EM_T (2 * 2 * 1) 1) as [N|_]; [lra|]. destruct (Req_EM_T (2 * 2 * 3) 1) as [N|_]; [lra|]. reflexivity.
  - exists 0. intros g p Hg' Hp. rewrite Hg in Hg'. apply ok_inj in Hg'. subst g. exact (proj1 (Sd 0 p Hp)). Qed.

(** * Examples *)
Example C179_front_ex : exists j, j_top_light 1 (1 / 10) 2 0 1 1 1 = Some j /\ is_RInt (collected false 2 0 1 (1 - 1 / 10) 1 1) 0 (1 - 1 / 10) j.
Proof. destruct (j_top_light 1 (1 / 10) 2 0 1 1 1) as [j|] eqn:H; [|apply top_none in H; lra].
  exists j. split; [reflexivity|]. apply C179_front; try lra. exact H. Qed.
Example C179_rear_ex : exists j, j_bot_light 2 (1 / 10) 2 5 1 1 1 = Some j /\ is_RInt (collected true 2 5 1 (2 - 1 / 10) 1 1) 0 (2 - 1 / 10) j.
Proof. destruct (j_bot_light 2 (1 / 10) 2 5 1 1 1) as [j|] eqn:H; [|apply bot_none in H; lra].
  exists j. split; [reflexivity|]. apply C179_rear; try lra. exact H. Qed.
Example C179_regions_ex : find_regions (layers 2) = Ok (pn 2) /\ find_regions [QL 1 "emitter" (p_mat 2); QL 1 "window" (p_mat 2)]%string = Err RuntimeError
  /\ find_regions [QL 1 "base" (p_mat 2)]%string = Err IndexError.
Proof. split; [exact (plain_regions 2)|]. split; reflexivity. Qed.
Example C179_depletion_ex : let j := QJ (layers 2) None None None None None None None (Some 1) false None None in
  q * 2 * fst (widths j 1 (1 / 2) 1 2 1) = q * 1 * snd (widths j 1 (1 / 2) 1 2 1).
Proof. apply C179_depletion; try reflexivity; lra. Qed.
Example C179_widths_ex : let j := QJ (layers 2) None None None None None None None None true (Some 5) None in
  fst (widths j 1 0 1 2 1) = 5 /\ q * 1 * snd (widths j 1 0 1 2 1) ^ 2 / (2 * 1) = 1.
Proof. set (j := QJ _ _ _ _ _ _ _ _ _ _ _ _). destruct (C179_widths j 1 0 1 2 1 ltac:(lra) ltac:(lra) ltac:(lra) ltac:(lra)) as (A & _ & _ & B).
  split; [apply A; reflexivity|apply B; reflexivity]. Qed.
Example C179_parameters_ex : exists p, parameters (plain 2) (pn 2) (3 / 10) = Ok p /\ r_V p = 3 / 10 /\ r_Vbi p = 7 / 10 /\ r_lp p = 2.
Proof. destruct (plain_pars 2 (3 / 10)) as [p Hp]. exists p. split; [exact Hp|].
  destruct (C179_parameters _ _ _ _ Hp) as (_ & _ & _ & _ & _ & _ & _ & _ & P9 & _ & _ & _ & (Vb & G1 & G2 & G3 & G4) & _).
  cbn [plain qj_Vbi given] in G1. subst Vb. rewrite Rmin_right in G2 by lra. repeat split; try lra. exact P9. Qed.
Example C179_doping_ex : parameters (plain 2) (Regions false (QL 2 "base" (p_mat 2)) None (QL 1 "emitter" (p_mat 2))) 0 = Err AttributeError.
Proof. reflexivity. Qed.
Example C179_dark_ex : exists o J, calculate_junction_sr (plain 2) [Light 1 1 1 1] 0 = Ok o /\ o_J o = Some J /\ J = o_Jn o + o_Jp o + o_Jgen o.
Proof. unfold calculate_junction_sr. rewrite plain_regions. cbn [bindR]. destruct (plain_pars 2 0) as [p Hp]. rewrite Hp. cbn [bindR].
  assert (S0 := plain_sound 2 0 p ltac:(lra) Hp).
  destruct (C179_parameters _ _ _ _ Hp) as (P1 & P2 & _ & _ & _ & _ & _ & _ & _ & _ & _ & P12 & (Vb & G1 & G2 & G3 & G4) & _).
  cbn [plain qj_Vbi given pn g_n g_p ql_mat p_mat n_mat qm_Na qm_Nd qm_T] in *. subst Vb. rewrite Rmin_right in G2 by lra. injection P1 as P1. injection P2 as P2.
  assert (Ni : 0 < r_ni2 p).
  { unfold parameters in Hp. cbn [pn g_n g_p ql_mat p_mat n_mat qm_Na qm_Nd attribute bindR] in Hp. apply ok_inj in Hp. rewrite <- Hp. cbn [r_ni2 qm_me qm_mh qm_T qm_gap].
    assert (D : 0 < dos 1 300).
    { unfold dos. cbv zeta. assert (Hk := kb_pos). assert (Hm := electron_mass_pos). assert (Hh := hbar_pos). assert (Pi := PI_RGT_0).
      assert (X : 0 < 1 * electron_mass * kb * 300 / (2 * PI * hbar ^ 2)).
      { apply Rdiv_lt_0_compat; [|apply Rmult_lt_0_compat; [lra|apply pow_lt; exact Hh]].
        apply Rmult_lt_0_compat; [|lra]. apply Rmult_lt_0_compat; lra. }
      apply Rmult_lt_0_compat; [lra|]. apply Rmult_lt_0_compat; [exact X|apply sqrt_lt_R0; exact X]. }
    apply Rmult_lt_0_compat; [apply Rmult_lt_0_compat; exact D|apply exp_pos]. }
  destruct (C179_dark (pn 2) p [Light 1 1 1 1] S0) as (Jr & J1 & J2 & J3 & J4 & J5 & J6); try lra; try (rewrite P12; lra).
  destruct (J6 ltac:(lra)) as (Z1 & Z2 & Z3). do 2 eexists. split; [reflexivity|]. split; [exact J2|]. rewrite Z1, Z2, Z3. ring. Qed.
Example C179_junction_ex : exists o, calculate_junction_sr (plain 2) [Light 1 1 1 1; Light 2 1 1 1] 0 = Ok o /\ o_e o = [1; 2] /\ length (o_qe_tot o) = 2%nat.
Proof. destruct (plain_result 2 0 [Light 1 1 1 1; Light 2 1 1 1]) as [o Ho]. destruct (plain_pars 2 0) as [p Hp]. exists o. split; [exact Ho|].
  destruct (C179_junction_partial _ _ _ _ _ _ Ho (plain_regions 2) Hp (plain_sound 2 0 p ltac:(lra) Hp) ltac:(intros l [<-|[<-|[]]]; cbn; lra)) as (K1 & K2 & _).
  destruct (C179_parameters _ _ _ _ Hp) as (_ & _ & _ & _ & _ & _ & _ & P8 & P9 & _).
  cbn [plain qj_ln qj_lp given pn g_n g_p ql_mat p_mat n_mat qm_ln qm_lp] in *.
  assert (K : kept (pn 2) p [Light 1 1 1 1; Light 2 1 1 1] = [Light 1 1 1 1; Light 2 1 1 1]).
  { unfold kept. cbn [filter l_E]. unfold resonant. cbn [pn g_n g_p ql_mat p_mat n_mat qm_alpha]. rewrite P8, P9. destruct (Req_EM_T (1 * 2) 1); [lra|]. reflexivity. }
  rewrite K1, K2, K. split; reflexivity. Qed.
Example C179_conservation_ex : exists r, spectral_response (Cell [ELayer (QL 1 "AR" (p_mat 2)); EJunction (plain 2); EJunction (plain 3)] (Some (1 / 10)) None) None (Some [1; 2]) 0 = Ok r
  /\ total (s_junctions r) 1 <= 9 / 10.
Proof. set (c := Cell _ _ _). assert (Hr : exists r, spectral_response c None (Some [1; 2]) 0 = Ok r).
  { unfold spectral_response. cbv zeta. set (ls := map _ _). cbn [c c_elements walk].
    destruct (plain_result 2 0 (behind_window (plain 2) (map (through_passive (QL 1 "AR" (p_mat 2))) ls))) as [o Ho]. rewrite Ho. cbn [bindR].
    match goal with |- context [calculate_junction_sr (plain 3) ?x 0] => destruct (plain_result 3 0 x) as [o' Ho'] end. rewrite Ho'. cbn [bindR]. eexists. reflexivity. }
  destruct Hr as [r Hr]. exists r. split; [exact Hr|].
  destruct (C179_conservation c None (Some [1; 2]) 0 r Hr) with (E := 1) (b := 1) as [_ Q].
  - split.
    + intros x E Hx. cbn [c c_elements flat_map layers_of plain qj_layers layers app] in Hx.
      repeat (destruct Hx as [<-|Hx]; [cbn; lra|]). destruct Hx.
    + intros j g p Hj Hg Hp. cbn [c c_elements In] in Hj. destruct Hj as [Hj|[Hj|[Hj|[]]]]; [discriminate Hj| |]; injection Hj as <-;
        rewrite plain_regions in Hg; apply ok_inj in Hg; subst g; apply (plain_sound _ 0 p); try lra; exact Hp.
  - cbn [incoming map fst]. constructor; [intros [X|[]]; lra|]. constructor; [intros []|constructor].
  - intros s Hs. injection Hs as <-. lra.
  - intros f E Hf. discriminate Hf.
  - left. reflexivity.
  - lra.
  - intros E' b' Hb. cbn [incoming map In] in Hb. destruct Hb as [Hb|[Hb|[]]]; injection Hb as _ <-; lra.
  - assert (En : enters c 1 1 = 9 / 10) by (unfold enters, c; cbn [c_shading c_reflectivity]; lra). rewrite En in Q.
    assert (P : 0 < remains (flat_map layers_of (c_elements c)) 1) by apply exp_pos. nra. Qed.
Example C179_light_ex : exists r, spectral_response (Cell [ELayer (QL 1 "AR" (p_mat 2))] (Some (1 / 10)) None) None (Some [1; 2]) 0 = Ok r
  /\ nth_error (s_transmitted r) 1 = Some (1 * (1 - 1 / 10) * 1 * remains [QL 1 "AR" (p_mat 2)] 2).
Proof. eexists. split; [reflexivity|].
  refine (proj1 (proj2 (C179_light (Cell [ELayer (QL 1 "AR" (p_mat 2))] (Some (1 / 10)) None) None (Some [1; 2]) 0 _ eq_refl) 1%nat 2 1 eq_refl)). Qed.
Example C179_current_ex : exists o (bs yn : list R), calculate_junction_sr (plain 2) [Light 1 1 1 1; Light 2 1 1 1] 0 = Ok o
  /\ o_Jn o = np_trapz yn (o_e o) /\ length bs = length (o_e o).
Proof. destruct (plain_result 2 0 [Light 1 1 1 1; Light 2 1 1 1]) as [o Ho].
  destruct (C179_current _ _ _ _ Ho) as (bs & yn & yp & ys & A & _ & _ & _ & B & _). exists o, bs, yn. repeat split; assumption. Qed.
Example C179_recombination_ex : exists p J, parameters (plain 2) (pn 2) (3 / 10) = Ok p /\ J_rec p = Some J /\ recombination p J.
Proof. destruct (plain_pars 2 (3 / 10)) as [p Hp]. 
  destruct (C179_parameters _ _ _ _ Hp) as (_ & _ & _ & _ & _ & _ & _ & _ & _ & _ & _ & P12 & (Vb & G1 & G2 & G3 & G4) & _).
  cbn [plain qj_Vbi given pn g_n ql_mat n_mat qm_T] in *. subst Vb. rewrite Rmin_right in G2 by lra.
  destruct (proj1 (C179_recombination p ltac:(rewrite P12; lra)) ltac:(lra)) as (J & J1 & J2). exists p, J. repeat split; assumption. Qed.

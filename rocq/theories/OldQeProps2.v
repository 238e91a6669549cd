(** C179: quantum efficiency of stacks of junctions (QE.py). *)
From Coq Require Import Reals String List Arith Bool Lra Lia.
From Coquelicot Require Import Coquelicot.
From Coq Require Import List.
From Verif Require Import Common PhysConst NumModel NpModel DetBalModel DepletionProps DepletionProps2 DepletionProps3.
From Verif Require Import OldQeModel OldQeProps.
Import ListNotations.
Open Scope R_scope.
Open Scope list_scope.

Lemma ok_inj {A} (a b : A) : Ok a = Ok b -> a = b.
Proof. intro E. inversion E. reflexivity. Qed.

(** * Parameters *)
(** [given o d] is the attribute of the junction, or else that of a material. *)
Definition given (o : option R) (d : R) (x : R) : Prop := match o with Some v => x = v | None => x = d end.
Theorem C179_parameters j g V p : parameters j g V = Ok p ->
  qm_Na (ql_mat (g_p g)) = Some (r_Na p) /\ qm_Nd (ql_mat (g_n g)) = Some (r_Nd p)
  /\ r_xn p = ql_width (g_n g) /\ r_xp p = ql_width (g_p g)
  /\ r_xi p = match g_i g with Some x => ql_width x | None => 0 end
  /\ given (qj_sn j) 0 (r_sn p) /\ given (qj_sp j) 0 (r_sp p)
  /\ given (qj_ln j) (qm_ln (ql_mat (g_p g))) (r_ln p) /\ given (qj_lp j) (qm_lp (ql_mat (g_n g))) (r_lp p)
  /\ (exists mu, given (qj_mup j) (qm_mue (ql_mat (g_p g))) mu /\ r_dp p = mu * (kb * qm_T (ql_mat (g_n g)) / q))
  /\ (exists mu, given (qj_mun j) (qm_muh (ql_mat (g_n g))) mu /\ r_dn p = mu * (kb * qm_T (ql_mat (g_n g)) / q))
  /\ r_T p = qm_T (ql_mat (g_n g))
  /\ (exists Vbi, given (qj_Vbi j) (kb * r_T p / q * ln (r_Nd p * r_Na p / r_ni2 p)) Vbi
       /\ r_V p = Rmin Vbi V /\ r_Vbi p = Vbi - r_V p /\ r_Vbi p >= 0)
  /\ (r_wn p, r_wp p) = widths j (r_es p) (r_xi p) (r_Na p) (r_Nd p) (r_Vbi p).
Proof. unfold parameters. cbv zeta. intro H. destruct (qm_Na (ql_mat (g_p g))) as [Na|]; cbn [attribute bindR] in H; [|discriminate H].
  destruct (qm_Nd (ql_mat (g_n g))) as [Nd|]; cbn [attribute bindR] in H; [|discriminate H]. apply ok_inj in H. subst p.
  cbn [r_T r_xn r_xp r_xi r_sn r_sp r_es r_ln r_lp r_dn r_dp r_ni2 r_Na r_Nd r_V r_Vbi r_wn r_wp].
  assert (G : forall o d, given o d (orelse o d)) by (intros [v|] d; reflexivity).
  repeat split; try apply G.
  - exists (orelse (qj_mup j) (qm_mue (ql_mat (g_p g)))). split; [apply G|]. assert (Hq := q_pos). field. lra.
  - exists (orelse (qj_mun j) (qm_muh (ql_mat (g_n g)))). split; [apply G|]. assert (Hq := q_pos). field. lra.
  - eexists. split; [apply G|]. split; [reflexivity|]. split; [reflexivity|].
    set (v := orelse (qj_Vbi j) _). assert (M := Rmin_l v V). lra.
  - rewrite <- surjective_pairing. reflexivity. Qed.
(** Without doping there is no result. *)
Theorem C179_doping j g V : is_ok (parameters j g V) = true <->
  exists a d, qm_Na (ql_mat (g_p g)) = Some a /\ qm_Nd (ql_mat (g_n g)) = Some d.
Proof. unfold parameters. cbv zeta. destruct (qm_Na (ql_mat (g_p g))) as [Na|]; cbn [attribute bindR is_ok].
  - destruct (qm_Nd (ql_mat (g_n g))) as [Nd|]; cbn [attribute bindR is_ok].
    + split; [intros _; exists Na, Nd; split; reflexivity|reflexivity].
    + split; [discriminate|]. intros (a & d & _ & Hd). discriminate Hd.
  - split; [discriminate|]. intros (a & d & Ha & _). discriminate Ha. Qed.

(** * Dark currents *)
(** Nelson's recombination current with the lifetimes of electrons and holes. *)
Definition recombination (p : pars) (J : R) : Prop :=
  exists te th, te = r_ln p ^ 2 / r_dp p /\ th = r_lp p ^ 2 / r_dn p
  /\ J = q * sqrt (r_ni2 p) * (r_wn p + r_wp p + r_xi p) / sqrt (te * th)
         * (2 * sinh (q * r_V p / (2 * kb * r_T p)) / (q * r_Vbi p / (kb * r_T p))) * (PI / 2).
Theorem C179_recombination p : 0 < r_T p ->
  (r_Vbi p <> 0 -> exists J, J_rec p = Some J /\ recombination p J) /\ (r_Vbi p = 0 -> J_rec p = None).
Proof. intro HT. assert (Hq := q_pos). assert (Hk := kb_pos). unfold J_rec. cbv zeta. unfold quot.
  assert (Z : q * r_Vbi p / (kb * r_T p) = 0 <-> r_Vbi p = 0).
  { split; [|intros ->; unfold Rdiv; ring]. intro E. apply (Rmult_eq_compat_r (kb * r_T p / q)) in E.
    rewrite Rmult_0_l in E. rewrite <- E. field. lra. }
  destruct (Req_EM_T _ 0) as [E|E]; split; intro HV.
  - exfalso. apply HV, Z, E.
  - reflexivity.
  - eexists. split; [reflexivity|]. exists (r_ln p ^ 2 / r_dp p), (r_lp p ^ 2 / r_dn p). split; [reflexivity|]. split; [reflexivity|].
    replace (r_ln p ^ 2 / r_dn p * (r_lp p ^ 2 / r_dp p)) with (r_ln p ^ 2 / r_dp p * (r_lp p ^ 2 / r_dn p)) by (unfold Rdiv; ring).
    replace (2 * (kb * r_T p)) with (2 * kb * r_T p) by ring. 
    generalize (sqrt (r_ln p ^ 2 / r_dp p * (r_lp p ^ 2 / r_dn p))) (q * r_Vbi p / (kb * r_T p)) (sinh (q * r_V p / (2 * kb * r_T p))).
    intros a b d. unfold Rdiv. generalize (/ a) (/ b). intros i i'. field.
  - exfalso. apply E, Z, HV. Qed.
Lemma exp_bias V T : 0 < T -> 0 <= V -> 0 <= exp (q * V / kb / T) - 1.
Proof. intros HT HV. assert (Hq := q_pos). assert (Hk := kb_pos).
  assert (X : 0 <= q * V / kb / T) by (repeat (apply div_nonneg; [|assumption]); apply Rmult_le_pos; lra).
  assert (M : exp 0 <= exp (q * V / kb / T)).
  { destruct X as [X|X]; [left; apply exp_increasing; exact X|right; rewrite <- X; reflexivity]. }
  rewrite exp_0 in M. lra. Qed.
Lemma dark_nonneg x w l s d V m T : 0 < l -> 0 < d -> 0 <= s -> 0 < T -> 0 <= m -> w <= x -> 0 <= V -> 0 <= J_dark x w l s d V m T.
Proof. intros Hl Hd Hs HT Hm Hw HV. unfold J_dark. cbv zeta. assert (Hq := q_pos).
  assert (A : 0 <= harg x w l) by (apply div_nonneg; lra).
  assert (K : 0 <= lsod l s d) by (apply div_nonneg; [apply Rmult_le_pos; lra|lra]).
  assert (D := surface_den _ _ K A). apply Rmult_le_pos; [apply Rmult_le_pos|].
  - apply div_nonneg; [|lra]. apply Rmult_le_pos; [apply Rmult_le_pos|]; lra.
  - apply exp_bias; assumption.
  - apply div_nonneg; [|exact D]. apply Rplus_le_le_0_compat; [apply Rmult_le_pos; [exact K|left; apply cosh_pos]|apply sinh_nonneg; exact A]. Qed.
Lemma dark_zero x w l s d m T : J_dark x w l s d 0 m T = 0.
Proof. unfold J_dark. cbv zeta. rewrite bias_exp_0. replace (1 - 1) with 0 by ring. ring. Qed.
(** What is lost in the dark: nothing without voltage, and never a gain under forward bias. *)
Theorem C179_dark g p ls : sound g p -> 0 < r_T p -> 0 < r_ni2 p -> 0 < r_Na p -> 0 < r_Nd p -> 0 < r_Vbi p -> 0 <= r_V p ->
  let o := collect g p ls in
  exists Jr, o_Jrec o = Some Jr /\ o_J o = Some (o_Jn o + o_Jp o + o_Jgen o - Jr - o_Jn_dif o - o_Jp_dif o)
  /\ 0 <= Jr /\ 0 <= o_Jn_dif o /\ 0 <= o_Jp_dif o
  /\ (r_V p = 0 -> Jr = 0 /\ o_Jn_dif o = 0 /\ o_Jp_dif o = 0).
Proof. intros (Hln & Hlp & Hdn & Hdp & Hsn & Hsp & Hwn & Hwp & Exn & Exp & Exi & Hxi & Ha) HT Hni HNa HNd HVbi HV o.
  assert (Hq := q_pos). assert (Hk := kb_pos).
  destruct (proj1 (C179_recombination p HT) (Rgt_not_eq _ _ HVbi)) as (Jr & HJ & te & th & Ete & Eth & EJ).
  exists Jr. unfold o, collect. cbv zeta. cbn [o_Jrec o_J o_Jn o_Jp o_Jgen o_Jn_dif o_Jp_dif]. rewrite HJ.
  split; [reflexivity|]. split; [reflexivity|].
  assert (A : 0 <= q * r_V p / (2 * kb * r_T p)).
  { apply div_nonneg; [apply Rmult_le_pos; lra|]. apply Rmult_lt_0_compat; [lra|exact HT]. }
  assert (B : 0 < q * r_Vbi p / (kb * r_T p)) by (apply Rdiv_lt_0_compat; apply Rmult_lt_0_compat; lra).
  assert (T : 0 < sqrt (te * th)).
  { apply sqrt_lt_R0. rewrite Ete, Eth. apply Rmult_lt_0_compat; apply Rdiv_lt_0_compat; try assumption; apply pow_lt; assumption. }
  split; [|split; [|split]].
  - rewrite EJ. apply Rmult_le_pos; [|assert (P := PI_RGT_0); lra]. apply Rmult_le_pos.
    + apply div_nonneg; [|exact T]. apply Rmult_le_pos; [apply Rmult_le_pos; [lra|apply sqrt_pos]|lra].
    + apply div_nonneg; [|exact B]. apply Rmult_le_pos; [lra|apply sinh_nonneg; exact A].
  - unfold Jn_dark. apply dark_nonneg; try assumption; [apply div_nonneg; lra|rewrite Exn; lra].
  - unfold Jp_dark. apply dark_nonneg; try assumption; [apply div_nonneg; lra|rewrite Exp; lra].
  - intro HV0. split; [|unfold Jn_dark, Jp_dark; rewrite HV0; split; apply dark_zero].
    rewrite EJ, HV0. replace (q * 0 / (2 * kb * r_T p)) with 0 by (unfold Rdiv; ring). rewrite sinh_0'. unfold Rdiv. ring. Qed.

(** * One junction *)
(** The energies at which the formula has no value: the absorption length is a diffusion length. *)
Definition resonant (g : regions) (p : pars) (E : R) : bool :=
  if Req_EM_T (qm_alpha (ql_mat (g_n g)) E * r_lp p) 1 then true
  else if Req_EM_T (qm_alpha (ql_mat (g_p g)) E * r_ln p) 1 then true else false.
Lemma sq_one x : 0 <= x -> x ^ 2 - 1 = 0 <-> x = 1.
Proof. intro Hx. split; [intro E; nra|intros ->; ring]. Qed.
Lemma top_none x w l s d a bs : 0 <= a -> 0 < l -> (j_top_light x w l s d a bs = None <-> a * l = 1).
Proof. intros Ha Hl. unfold j_top_light. cbv zeta. assert (P : 0 <= a * l) by (apply Rmult_le_pos; lra).
  rewrite <- (sq_one (a * l) P). replace ((a * l) ^ 2 - 1) with (a ^ 2 * l ^ 2 - 1) by ring.
  destruct (Req_EM_T _ 0); split; intro H; try tauto; discriminate H. Qed.
Lemma bot_none x w l s d a bs : 0 <= a -> 0 < l -> (j_bot_light x w l s d a bs = None <-> a * l = 1).
Proof. intros Ha Hl. unfold j_bot_light. cbv zeta. assert (P : 0 <= a * l) by (apply Rmult_le_pos; lra).
  rewrite <- (sq_one (a * l) P). replace ((a * l) ^ 2 - 1) with (a ^ 2 * l ^ 2 - 1) by ring.
  destruct (Req_EM_T _ 0); split; intro H; try tauto; discriminate H. Qed.
Lemma in_parts g : In (g_n g) (parts g) /\ In (g_p g) (parts g).
Proof. unfold parts. destruct (g_np g); split; try (left; reflexivity); right; apply in_or_app; right; left; reflexivity. Qed.
Lemma currents_none g p l : sound g p -> (currents g p l = None <-> resonant g p (l_E l) = true).
Proof. intros (Hln & Hlp & Hdn & Hdp & Hsn & Hsp & Hwn & Hwp & Exn & Exp & Exi & Hxi & Ha).
  assert (HaN := Ha _ (l_E l) (proj1 (in_parts g))). assert (HaP := Ha _ (l_E l) (proj2 (in_parts g))).
  unfold currents, resonant. cbv zeta. destruct (g_np g).
  - destruct (j_top_light _ _ _ _ _ _ _) as [t|] eqn:Ht.
    + destruct (Req_EM_T _ 1) as [E|E]; [exfalso; apply top_none with (x := r_xn p) (w := r_wn p) (s := r_sn p) (d := r_dn p) (bs := l_bs l) in E; [rewrite Ht in E; discriminate E|assumption..]|].
      destruct (j_bot_light _ _ _ _ _ _ _) as [b|] eqn:Hb.
      * destruct (Req_EM_T (qm_alpha (ql_mat (g_p g)) (l_E l) * r_ln p) 1) as [F|F]; [|split; discriminate].
        exfalso. eapply bot_none in F; [rewrite Hb in F; discriminate F|assumption..].
      * apply bot_none in Hb; [|assumption..]. destruct (Req_EM_T (qm_alpha (ql_mat (g_p g)) (l_E l) * r_ln p) 1); [tauto|contradiction].
    + apply top_none in Ht; [|assumption..]. destruct (Req_EM_T _ 1); [tauto|contradiction].
  - destruct (j_top_light _ _ _ _ _ _ _) as [t|] eqn:Ht.
    + destruct (j_bot_light _ _ _ _ _ _ _) as [b|] eqn:Hb.
      * destruct (Req_EM_T (qm_alpha (ql_mat (g_n g)) (l_E l) * r_lp p) 1) as [F|F]; [exfalso; eapply bot_none in F; [rewrite Hb in F; discriminate F|assumption..]|].
        destruct (Req_EM_T (qm_alpha (ql_mat (g_p g)) (l_E l) * r_ln p) 1) as [F'|F']; [|split; discriminate].
        exfalso. eapply top_none in F'; [rewrite Ht in F'; discriminate F'|assumption..].
      * apply bot_none in Hb; [|assumption..]. destruct (Req_EM_T (qm_alpha (ql_mat (g_n g)) (l_E l) * r_lp p) 1); [tauto|contradiction].
    + apply top_none in Ht; [|assumption..]. destruct (Req_EM_T (qm_alpha (ql_mat (g_n g)) (l_E l) * r_lp p) 1); [tauto|].
      destruct (Req_EM_T (qm_alpha (ql_mat (g_p g)) (l_E l) * r_ln p) 1); [tauto|contradiction]. Qed.
Definition kept (g : regions) (p : pars) (ls : list light) : list light := filter (fun l => negb (resonant g p (l_E l))) ls.
Lemma finite_kept g p ls : sound g p ->
  map (currents g p) (kept g p ls) = map Some (finite (map (currents g p) ls)).
Proof. intro Hs. induction ls as [|l t IH]; [reflexivity|]. cbn [kept filter map finite].
  destruct (currents g p l) as [e|] eqn:E.
  - destruct (resonant g p (l_E l)) eqn:Rs; [apply (currents_none g p l Hs) in Rs; rewrite E in Rs; discriminate Rs|].
    cbn [negb map]. rewrite E. f_equal. exact IH.
  - apply (currents_none g p l Hs) in E. rewrite E. cbn [negb]. exact IH. Qed.
(** Quantum efficiencies of the photons [l]: not negative, and together not more than what the
    junction absorbs. *)
Definition efficient (g : regions) (l : light) (n p s t : option R) : Prop :=
  exists a b d, n = Some a /\ p = Some b /\ s = Some d /\ t = Some (a + b + d) /\ 0 <= a /\ 0 <= b /\ 0 <= d
  /\ (a + b + d) * l_b0 l <= l_bs l * (1 - remains (parts g) (l_E l)).
Lemma nth_map_some {A B} (f : A -> B) l i x : nth_error l i = Some x -> nth_error (map f l) i = Some (f x).
Proof. intro H. rewrite nth_error_map, H. reflexivity. Qed.
Lemma entry_efficient g p l e : sound g p -> 0 <= l_bs l -> 0 < l_b0 l -> currents g p l = Some e ->
  efficient g l (quot (e_jn e / q) (e_b0 e)) (quot (e_jp e / q) (e_b0 e)) (quot (e_jgen e / q) (e_b0 e))
            (quot ((e_jn e + e_jp e + e_jgen e) / q) (e_b0 e)).
Proof. intros Hs Hb Hb0 He. destruct (entry_sound g p l e Hs Hb He) as (E1 & E2 & E3 & E4 & E5 & E6).
  assert (Hq := q_pos). unfold quot. rewrite E2. destruct (Req_EM_T (l_b0 l) 0) as [Z|Z]; [lra|].
  exists (e_jn e / q / l_b0 l), (e_jp e / q / l_b0 l), (e_jgen e / q / l_b0 l).
  split; [reflexivity|]. split; [reflexivity|]. split; [reflexivity|].
  split; [f_equal; field; lra|]. repeat split; try (repeat (apply div_nonneg; [|assumption]); assumption).
  replace ((e_jn e / q / l_b0 l + e_jp e / q / l_b0 l + e_jgen e / q / l_b0 l) * l_b0 l) with ((e_jn e + e_jp e + e_jgen e) / q) by (field; lra).
  apply (Rmult_le_reg_l q); [exact Hq|]. replace (q * ((e_jn e + e_jp e + e_jgen e) / q)) with (e_jn e + e_jp e + e_jgen e) by (field; lra). exact E6. Qed.
Theorem C179_junction_partial j ls V o g p : calculate_junction_sr j ls V = Ok o ->
  find_regions (qj_layers j) = Ok g -> parameters j g V = Ok p -> sound g p ->
  (forall l, In l ls -> 0 <= l_bs l /\ 0 < l_b0 l) ->
  o_e o = map l_E (kept g p ls)
  /\ length (o_qe_tot o) = length (kept g p ls)
  /\ (forall i l, nth_error (kept g p ls) i = Some l -> exists a b d t,
       nth_error (o_qe_n o) i = Some a /\ nth_error (o_qe_p o) i = Some b /\ nth_error (o_qe_scr o) i = Some d
       /\ nth_error (o_qe_tot o) i = Some t /\ efficient g l a b d t).
Proof. intros Ho Hg Hp Hs Hl. unfold calculate_junction_sr in Ho. rewrite Hg in Ho. cbn [bindR] in Ho. rewrite Hp in Ho. cbn [bindR] in Ho.
  apply ok_inj in Ho. subst o. unfold collect. cbv zeta. cbn [o_e o_qe_n o_qe_p o_qe_scr o_qe_tot].
  assert (K := finite_kept g p ls Hs).
  assert (Hk : forall l, In l (kept g p ls) -> 0 <= l_bs l /\ 0 < l_b0 l) by (intros l Hi; apply Hl; apply filter_In in Hi; apply Hi).
  set (ks := kept g p ls) in *. set (es := finite (map (currents g p) ls)) in *. clearbody ks es.
  assert (Len : length es = length ks) by (apply (f_equal (@length (option entry))) in K; rewrite !map_length in K; symmetry; exact K).
  assert (Ent : forall i l, nth_error ks i = Some l -> exists e, nth_error es i = Some e /\ currents g p l = Some e).
  { intros i l Hi. assert (Q := f_equal (fun x => nth_error x i) K). cbv beta in Q. rewrite !nth_error_map, Hi in Q. cbn in Q.
    destruct (nth_error es i) as [e|]; cbn in Q; [|discriminate Q]. exists e. split; [reflexivity|]. injection Q as Q. exact Q. }
  split; [|split].
  - apply (nth_ext _ _ 0 0); [rewrite !map_length; exact Len|]. intros i Hi. rewrite map_length in Hi.
    destruct (nth_error ks i) as [l|] eqn:El; [|apply nth_error_None in El; lia].
    destruct (Ent i l El) as (e & Ee & Ec).
    destruct (entry_sound g p l e Hs (proj1 (Hk l (nth_error_In _ _ El))) Ec) as (E1 & _).
    rewrite (nth_error_nth _ _ 0 (nth_map_some e_E es i e Ee)), (nth_error_nth _ _ 0 (nth_map_some l_E ks i l El)). exact E1.
  - rewrite map_length. exact Len.
  - intros i l El. destruct (Ent i l El) as (e & Ee & Ec). destruct (Hk l (nth_error_In _ _ El)) as [B0 B1].
    do 4 eexists. split; [exact (nth_map_some _ es i e Ee)|]. split; [exact (nth_map_some _ es i e Ee)|].
    split; [exact (nth_map_some _ es i e Ee)|]. split; [exact (nth_map_some _ es i e Ee)|].
    exact (entry_efficient g p l e Hs B0 B1 Ec). Qed.
(** The photocurrents are the integrals of the quantum efficiencies. *)
Theorem C179_current j ls V o : calculate_junction_sr j ls V = Ok o ->
  exists bs yn yp ys, o_Jn o = np_trapz yn (o_e o) /\ o_Jp o = np_trapz yp (o_e o) /\ o_Jgen o = np_trapz ys (o_e o)
  /\ (forall b, In b bs -> In b (map l_b0 ls)) /\ length bs = length (o_e o)
  /\ forall i b, nth_error bs i = Some b -> b <> 0 ->
     exists a' b' d', nth_error (o_qe_n o) i = Some (Some a') /\ nth_error (o_qe_p o) i = Some (Some b')
     /\ nth_error (o_qe_scr o) i = Some (Some d')
     /\ nth_error yn i = Some (q * a' * b) /\ nth_error yp i = Some (q * b' * b) /\ nth_error ys i = Some (q * d' * b).
Proof. intro Ho. unfold calculate_junction_sr in Ho. destruct (find_regions (qj_layers j)) as [g|]; cbn [bindR] in Ho; [|discriminate Ho].
  destruct (parameters j g V) as [p|]; cbn [bindR] in Ho; [|discriminate Ho]. apply ok_inj in Ho. subst o.
  unfold collect. cbv zeta. cbn [o_e o_qe_n o_qe_p o_qe_scr o_qe_tot o_Jn o_Jp o_Jgen].
  assert (B : forall b, In b (map e_b0 (finite (map (currents g p) ls))) -> In b (map l_b0 ls)).
  { induction ls as [|l t IH]; [intros b []|]. cbn [map finite]. destruct (currents g p l) as [e|] eqn:E.
    - cbn [map]. intros b [Hb|Hb]; [|right; apply IH; exact Hb]. left. subst b.
      unfold currents in E. cbv zeta in E. destruct (g_np g); destruct (j_top_light _ _ _ _ _ _ _); try discriminate E;
        destruct (j_bot_light _ _ _ _ _ _ _); try discriminate E; injection E as <-; reflexivity.
    - intros b Hb. right. apply IH. exact Hb. }
  set (es := finite (map (currents g p) ls)) in *. clearbody es.
  exists (map e_b0 es), (map e_jn es), (map e_jp es), (map e_jgen es).
  split; [reflexivity|]. split; [reflexivity|]. split; [reflexivity|]. split; [exact B|]. split; [rewrite !map_length; reflexivity|].
  intros i b Hb Hn. rewrite nth_error_map in Hb. destruct (nth_error es i) as [e|] eqn:E; [|discriminate Hb]. injection Hb as Hb.
  rewrite !nth_error_map, E. cbn [option_map]. unfold quot. rewrite Hb. destruct (Req_EM_T b 0); [contradiction|].
  assert (Hq := q_pos). do 3 eexists. repeat split; f_equal; field; lra. Qed.

(** * Stacks *)
(** The layers of an element from the front, and those of them that do not belong to emitter, base
    or what is behind. *)
Definition layers_of (e : element) : list qlayer := match e with ELayer x => [x] | EJunction j => qj_layers j | EOther => [] end.
Fixpoint before_emitter (l : list qlayer) : list qlayer :=
  match l with [] => [] | x :: r => if string_dec (ql_role x) "emitter" then [] else x :: before_emitter r end.
Definition passive_of (e : element) : list qlayer := match e with ELayer x => [x] | EJunction j => before_emitter (qj_layers j) | EOther => [] end.
Lemma before_firstn l : firstn (emitter_index l) l = before_emitter l.
Proof. induction l as [|x r IH]; [reflexivity|]. cbn [emitter_index before_emitter].
  destruct (String.eqb_spec (ql_role x) "emitter") as [E|E], (string_dec (ql_role x) "emitter") as [F|F]; try contradiction; [reflexivity|].
  cbn [firstn]. f_equal. exact IH. Qed.
Lemma remains_app a b E : remains (a ++ b) E = remains a E * remains b E.
Proof. unfold remains. rewrite <- exp_plus. f_equal. induction a as [|x r IH]; cbn [app fold_right]; [ring|]. rewrite Ropp_plus_distr, IH. ring. Qed.
Lemma remains_cons x b E : remains (x :: b) E = transmission x E * remains b E.
Proof. unfold remains, transmission. rewrite <- exp_plus. f_equal. cbn [fold_right]. ring. Qed.
Lemma remains_nil E : remains [] E = 1.
Proof. unfold remains. cbn [fold_right]. rewrite Ropp_0. apply exp_0. Qed.
(** Light behind layers, passive or not. *)
Definition behind (all pass : list qlayer) (l : light) : light :=
  Light (l_E l) (l_bs l * remains all (l_E l)) (l_b0 l) (l_pass l * remains pass (l_E l)).
Lemma fold_passive xs : forall ls, fold_left (fun a x => map (through_passive x) a) xs ls = map (behind xs xs) ls.
Proof. induction xs as [|x r IH]; intro ls; cbn [fold_left].
  - rewrite <- (map_id ls) at 1. apply map_ext. intros [E b b0 pp]. unfold behind. cbn [l_E l_bs l_b0 l_pass]. rewrite remains_nil, !Rmult_1_r. reflexivity.
  - rewrite IH, map_map. apply map_ext. intros [E b b0 pp]. unfold behind, through_passive. cbn [l_E l_bs l_b0 l_pass]. rewrite remains_cons. f_equal; ring. Qed.
Lemma fold_active xs : forall ls, fold_left (fun a x => map (through_active x) a) xs ls = map (behind xs []) ls.
Proof. induction xs as [|x r IH]; intro ls; cbn [fold_left].
  - rewrite <- (map_id ls) at 1. apply map_ext. intros [E b b0 pp]. unfold behind. cbn [l_E l_bs l_b0 l_pass]. rewrite remains_nil, !Rmult_1_r. reflexivity.
  - rewrite IH, map_map. apply map_ext. intros [E b b0 pp]. unfold behind, through_active. cbn [l_E l_bs l_b0 l_pass]. rewrite remains_cons, !remains_nil. f_equal; ring. Qed.
Lemma behind_behind a p b p' l : behind b p' (behind a p l) = behind (a ++ b) (p ++ p') l.
Proof. destruct l as [E bs b0 pp]. unfold behind. cbn [l_E l_bs l_b0 l_pass]. rewrite !remains_app. f_equal; ring. Qed.
Lemma junction_light j ls : behind_junction j (behind_window j ls) = map (behind (qj_layers j) (before_emitter (qj_layers j))) ls.
Proof. unfold behind_junction, behind_window. rewrite fold_passive, fold_active, map_map. apply map_ext. intro l.
  rewrite behind_behind, firstn_skipn, app_nil_r, before_firstn. reflexivity. Qed.
Lemma walk_light es V : forall ls w, walk es V ls = Ok w ->
  snd w = map (behind (flat_map layers_of es) (flat_map passive_of es)) ls.
Proof. induction es as [|e r IH]; intros ls w H; cbn [walk] in H.
  - apply ok_inj in H. subst w. cbn [snd flat_map]. rewrite <- (map_id ls) at 1. apply map_ext. intros [E b b0 pp]. unfold behind. cbn [l_E l_bs l_b0 l_pass].
    rewrite remains_nil, !Rmult_1_r. reflexivity.
  - destruct e as [x|j|]; [| |discriminate H].
    + rewrite (IH _ _ H), map_map. apply map_ext. intro l. cbn [flat_map layers_of passive_of]. rewrite <- behind_behind.
      f_equal. destruct l as [E b b0 pp]. unfold behind, through_passive. cbn [l_E l_bs l_b0 l_pass]. rewrite !remains_cons, !remains_nil. f_equal; ring.
    + cbv zeta in H. destruct (calculate_junction_sr j (behind_window j ls) V) as [o|]; cbn [bindR] in H; [|discriminate H].
      destruct (walk r V (behind_junction j (behind_window j ls))) as [rest|] eqn:Hr; cbn [bindR] in H; [|discriminate H].
      apply ok_inj in H. subst w. cbn [snd]. rewrite (IH _ _ Hr), junction_light, map_map. apply map_ext. intro l.
      cbn [flat_map layers_of passive_of]. rewrite behind_behind. reflexivity. Qed.
(** Every energy: what is transmitted is what enters, less what all layers absorb; the passive
    loss is what the passive layers alone would absorb. *)
Definition enters (c : cell) (E b : R) : R :=
  b * (match c_shading c with Some s => 1 - s | None => 1 end) * (match c_reflectivity c with Some f => 1 - f E | None => 1 end).
Theorem C179_light c incident energy V r : spectral_response c incident energy V = Ok r ->
  s_e r = map fst (incoming incident energy)
  /\ (forall i E b, nth_error (incoming incident energy) i = Some (E, b) ->
       nth_error (s_transmitted r) i = Some (enters c E b * remains (flat_map layers_of (c_elements c)) E)
       /\ nth_error (s_passive_loss r) i = Some (1 - remains (flat_map passive_of (c_elements c)) E)
       /\ nth_error (s_reflected r) i = Some (match c_reflectivity c with Some f => f E * b | None => 0 end)
       /\ (b <> 0 -> nth_error (s_transmitted_fraction r) i
                     = Some (Some (enters c E 1 * remains (flat_map layers_of (c_elements c)) E))
                  /\ nth_error (s_reflected_fraction r) i = Some (Some (match c_reflectivity c with Some f => f E | None => 0 end)))).
Proof. unfold spectral_response. cbv zeta. intro H. destruct (walk (c_elements c) V _) as [w|] eqn:Hw; cbn [bindR] in H; [|discriminate H].
  apply ok_inj in H. subst r. cbn [s_e s_transmitted s_passive_loss s_reflected s_transmitted_fraction s_reflected_fraction].
  rewrite (walk_light _ _ _ _ Hw). split; [rewrite map_map; apply map_ext; intros [E b]; reflexivity|].
  intros i E b Hi. rewrite !nth_error_map, Hi. cbn [option_map]. unfold behind, entering, reflected. cbn [l_E l_bs l_b0 l_pass].
  assert (En : b * (1 - orelse (c_shading c) 0) * (match c_reflectivity c with Some f => 1 - f E | None => 1 end) = enters c E b).
  { unfold enters, orelse. destruct (c_shading c); f_equal; ring. }
  split; [rewrite En; reflexivity|]. split; [rewrite Rmult_1_l; reflexivity|]. split; [reflexivity|].
  intro Hb. unfold quot. destruct (Req_EM_T b 0); [contradiction|]. rewrite En. split; do 2 f_equal.
  - unfold enters. field. exact Hb.
  - destruct (c_reflectivity c); field; exact Hb. Qed.

(** * Conservation *)
(** The total quantum efficiency of a junction at an energy; zero where it has none. *)
Fixpoint at_energy (es : list R) (qs : list (option R)) (E : R) : R :=
  match es, qs with
  | e :: es', x :: qs' => if Req_EM_T e E then match x with Some v => v | None => 0 end else at_energy es' qs' E
  | _, _ => 0
  end.
Definition efficiency (o : output) (E : R) : R := at_energy (o_e o) (o_qe_tot o) E.
Definition total (os : list output) (E : R) : R := fold_right (fun o a => efficiency o E + a) 0 os.
Lemma at_energy_cases es : forall qs E, at_energy es qs E = 0 \/
  exists i v, nth_error es i = Some E /\ nth_error qs i = Some (Some v) /\ at_energy es qs E = v.
Proof. induction es as [|e es IH]; intros [|x qs] E; cbn [at_energy]; try (left; reflexivity).
  destruct (Req_EM_T e E) as [->|_].
  - destruct x as [v|]; [right; exists O, v; repeat split|left; reflexivity].
  - destruct (IH qs E) as [Z|(i & v & H1 & H2 & H3)]; [left; exact Z|right; exists (S i), v; repeat split; assumption]. Qed.
Lemma remains_range xs E : (forall x, In x xs -> 0 <= qm_alpha (ql_mat x) E /\ 0 <= ql_width x) -> 0 < remains xs E <= 1.
Proof. intro H. split; [apply exp_pos|]. induction xs as [|x r IH]; [rewrite remains_nil; lra|]. rewrite remains_cons.
  assert (I : remains r E <= 1) by (apply IH; intros y Hy; apply H; right; exact Hy).
  assert (P : 0 < remains r E) by apply exp_pos. destruct (H x (or_introl eq_refl)) as [A W].
  assert (T : transmission x E <= 1).
  { unfold transmission. rewrite <- exp_0. assert (Q : - qm_alpha (ql_mat x) E * ql_width x <= 0) by (assert (0 <= qm_alpha (ql_mat x) E * ql_width x) by (apply Rmult_le_pos; assumption); lra).
    destruct Q as [Q|Q]; [left; apply exp_increasing; exact Q|right; rewrite Q; reflexivity]. }
  assert (T0 : 0 < transmission x E) by apply exp_pos. nra. Qed.
Lemma firstn_In {A} n (l : list A) x : In x (firstn n l) -> In x l.
Proof. intro H. rewrite <- (firstn_skipn n l). apply in_or_app. left. exact H. Qed.
Definition all_sound (es : list element) (V : R) : Prop :=
  (forall x E, In x (flat_map layers_of es) -> 0 <= qm_alpha (ql_mat x) E /\ 0 <= ql_width x)
  /\ forall j g p, In (EJunction j) es -> find_regions (qj_layers j) = Ok g -> parameters j g V = Ok p -> sound g p.
(** The absorbing layers of the regions are among those behind the window. *)
Lemma parts_behind l g E : find_regions l = Ok g ->
  (forall x, In x l -> 0 <= qm_alpha (ql_mat x) E /\ 0 <= ql_width x) ->
  remains (skipn (emitter_index l) l) E <= remains (parts g) E.
Proof. intros Hg Hl. destruct (find_sound l g Hg) as (e & i & b & (front & back & El & Hf & He & Hi & Hb) & ->).
  assert (Ix : emitter_index l = length front) by (rewrite El; apply emitter_index_spec; assumption).
  assert (Sk : skipn (emitter_index l) l = e :: match i with Some x => [x] | None => [] end ++ b :: back).
  { rewrite Ix, El, skipn_app, skipn_all, Nat.sub_diag. reflexivity. }
  assert (Pa : remains (parts (assign e i b)) E = remains (e :: match i with Some x => [x] | None => [] end ++ [b]) E).
  { unfold assign, parts. destruct (is_np (ql_mat e)); cbn [g_np g_n g_i g_p]; reflexivity. }
  rewrite Pa, Sk. replace (e :: match i with Some x => [x] | None => [] end ++ b :: back) with ((e :: match i with Some x => [x] | None => [] end ++ [b]) ++ back)
    by (cbn [app]; rewrite <- app_assoc; reflexivity).
  rewrite remains_app. assert (Rb : 0 < remains back E <= 1).
  { apply remains_range. intros x Hx. apply Hl. rewrite El. apply in_or_app. right. right. apply in_or_app. right. right. exact Hx. }
  assert (P : 0 < remains (e :: match i with Some x => [x] | None => [] end ++ [b]) E) by apply exp_pos. nra. Qed.
Lemma NoDup_pos (ls : list light) l l' : NoDup (map l_E ls) -> In l ls -> In l' ls -> l_E l = l_E l' -> l = l'.
Proof. induction ls as [|x r IH]; [intros _ []|]. cbn [map]. intro N. apply NoDup_cons_iff in N. destruct N as [N1 N2].
  intros [->|H] [->|H'] E; try reflexivity.
  - exfalso. apply N1. rewrite E. apply in_map. exact H'.
  - exfalso. apply N1. rewrite <- E. apply in_map. exact H.
  - apply IH; assumption. Qed.
Lemma map_E_behind a p ls : map l_E (map (behind a p) ls) = map l_E ls.
Proof. rewrite map_map. apply map_ext. reflexivity. Qed.
Lemma walk_conserves es V : forall ls w, all_sound es V -> NoDup (map l_E ls) ->
  (forall l, In l ls -> 0 <= l_bs l /\ 0 < l_b0 l) -> walk es V ls = Ok w ->
  forall l, In l ls -> 0 <= total (fst w) (l_E l) /\
    total (fst w) (l_E l) * l_b0 l + l_bs l * remains (flat_map layers_of es) (l_E l) <= l_bs l.
Proof. induction es as [|e r IH]; intros ls w Hs Hn Hl H l Hin; cbn [walk] in H.
  - apply ok_inj in H. subst w. cbn [fst total fold_right flat_map]. rewrite remains_nil. lra.
  - assert (Hs' : all_sound r V).
    { destruct Hs as [S1 S2]. split; [intros x E Hx; apply S1; cbn [flat_map]; apply in_or_app; right; exact Hx|].
      intros j g p Hj. apply S2. right. exact Hj. }
    assert (Bh : forall a p l0, (forall x, In x a -> forall E, 0 <= qm_alpha (ql_mat x) E /\ 0 <= ql_width x) -> In l0 (map (behind a p) ls) -> 0 <= l_bs l0 /\ 0 < l_b0 l0).
    { intros a p l0 Ha H0. apply in_map_iff in H0. destruct H0 as (l1 & <- & H1). unfold behind. cbn [l_bs l_b0].
      destruct (Hl l1 H1) as [A B]. split; [|exact B]. apply Rmult_le_pos; [exact A|left; apply exp_pos]. }
    destruct e as [x|j|]; [| |discriminate H].
    + assert (Eq : map (through_passive x) ls = map (behind [x] [x]) ls).
      { apply map_ext. intros [E b b0 pp]. unfold behind, through_passive. cbn [l_E l_bs l_b0 l_pass]. rewrite !remains_cons, !remains_nil. f_equal; ring. }
      rewrite Eq in H. assert (Hx : forall y, In y [x] -> forall E, 0 <= qm_alpha (ql_mat y) E /\ 0 <= ql_width y).
      { intros y Hy E. apply (proj1 Hs). cbn [flat_map layers_of]. apply in_or_app. left. exact Hy. }
      assert (Q := IH _ _ Hs' ltac:(rewrite map_E_behind; exact Hn) (fun l0 => Bh [x] [x] l0 Hx) H (behind [x] [x] l) (in_map _ _ _ Hin)).
      cbn [behind l_E l_bs l_b0] in Q. destruct Q as [Q1 Q2]. split; [exact Q1|]. cbn [flat_map layers_of]. rewrite remains_app.
      assert (R1 := remains_range [x] (l_E l) (fun y Hy => Hx y Hy (l_E l))). destruct (Hl l Hin) as [B0 B1]. nra.
    + cbv zeta in H. destruct (calculate_junction_sr j (behind_window j ls) V) as [o|] eqn:Ho; cbn [bindR] in H; [|discriminate H].
      destruct (walk r V (behind_junction j (behind_window j ls))) as [rest|] eqn:Hr; cbn [bindR] in H; [|discriminate H].
      apply ok_inj in H. subst w. cbn [fst total fold_right]. fold (total (fst rest) (l_E l)).
      assert (Hj : forall y, In y (qj_layers j) -> forall E, 0 <= qm_alpha (ql_mat y) E /\ 0 <= ql_width y).
      { intros y Hy E. apply (proj1 Hs). cbn [flat_map layers_of]. apply in_or_app. left. exact Hy. }
      rewrite junction_light in Hr.
      assert (Q := IH _ _ Hs' ltac:(rewrite map_E_behind; exact Hn) (fun l0 => Bh _ _ l0 Hj) Hr (behind (qj_layers j) (before_emitter (qj_layers j)) l) (in_map _ _ _ Hin)).
      cbn [behind l_E l_bs l_b0] in Q. destruct Q as [Q1 Q2]. cbn [flat_map layers_of]. rewrite remains_app.
      destruct (Hl l Hin) as [B0 B1].
      set (win := before_emitter (qj_layers j)) in *.
      assert (Win : behind_window j ls = map (behind win win) ls) by (unfold behind_window; rewrite fold_passive, before_firstn; reflexivity).
      assert (Split : remains (qj_layers j) (l_E l) = remains win (l_E l) * remains (skipn (emitter_index (qj_layers j)) (qj_layers j)) (l_E l)).
      { unfold win. rewrite <- before_firstn, <- remains_app, firstn_skipn. reflexivity. }
      assert (Wr : 0 < remains win (l_E l) <= 1).
      { apply remains_range. intros y Hy. apply Hj. unfold win in Hy. rewrite <- before_firstn in Hy. apply (firstn_In _ _ _ Hy). }
      assert (Ef : 0 <= efficiency o (l_E l) /\ efficiency o (l_E l) * l_b0 l
                 <= l_bs l * remains win (l_E l) * (1 - remains (skipn (emitter_index (qj_layers j)) (qj_layers j)) (l_E l))).
      { assert (Ho' := Ho). unfold calculate_junction_sr in Ho'. destruct (find_regions (qj_layers j)) as [g|] eqn:Hg; cbn [bindR] in Ho'; [|discriminate Ho'].
        destruct (parameters j g V) as [p|] eqn:Hp; cbn [bindR] in Ho'; [|discriminate Ho']. clear Ho'.
        assert (Sd := proj2 Hs j g p (or_introl eq_refl) Hg Hp).
        assert (Hw : forall l0, In l0 (behind_window j ls) -> 0 <= l_bs l0 /\ 0 < l_b0 l0).
        { rewrite Win. intro l0. apply Bh. intros y Hy. apply Hj. unfold win in Hy. rewrite <- before_firstn in Hy. apply (firstn_In _ _ _ Hy). }
        destruct (C179_junction_partial _ _ _ _ _ _ Ho Hg Hp Sd Hw) as (K1 & K2 & K3).
        assert (Pb := parts_behind _ g (l_E l) Hg (fun y Hy => Hj y Hy (l_E l))).
        assert (Sr : 0 < remains (skipn (emitter_index (qj_layers j)) (qj_layers j)) (l_E l) <= 1).
        { apply remains_range. intros y Hy. apply Hj. rewrite <- (firstn_skipn (emitter_index (qj_layers j)) (qj_layers j)). apply in_or_app. right. exact Hy. }
        unfold efficiency. destruct (at_energy_cases (o_e o) (o_qe_tot o) (l_E l)) as [Z|(i & v & V1 & V2 & V3)].
        - rewrite Z. split; [lra|]. rewrite Rmult_0_l. apply Rmult_le_pos; [apply Rmult_le_pos; lra|lra].
        - rewrite V3. rewrite K1, nth_error_map in V1. destruct (nth_error (kept g p (behind_window j ls)) i) as [l0|] eqn:E0; [|discriminate V1].
          injection V1 as V1. destruct (K3 i l0 E0) as (a & b & d & t & _ & _ & _ & T1 & (a' & b' & d' & -> & -> & -> & -> & P1 & P2 & P3 & P4)).
          rewrite V2 in T1. injection T1 as ->.
          assert (I0 : In l0 (behind_window j ls)) by (apply nth_error_In in E0; apply filter_In in E0; apply E0).
          assert (L0 : l0 = behind win win l).
          { apply (NoDup_pos (behind_window j ls)); [rewrite Win, map_E_behind; exact Hn|exact I0|rewrite Win; apply in_map; exact Hin|exact V1]. }
          subst l0. cbn [behind l_E l_bs l_b0] in P4. split; [lra|].
          eapply Rle_trans; [exact P4|]. apply Rmult_le_compat_l; [apply Rmult_le_pos; lra|lra]. }
      destruct Ef as [Ef1 Ef2]. split; [lra|]. rewrite Split in *. nra. Qed.
(** All junctions together and what is transmitted: no more than what enters. *)
Theorem C179_conservation c incident energy V r : spectral_response c incident energy V = Ok r ->
  all_sound (c_elements c) V -> NoDup (map fst (incoming incident energy)) ->
  (forall s, c_shading c = Some s -> s <= 1) -> (forall f E, c_reflectivity c = Some f -> f E <= 1) ->
  forall E b, In (E, b) (incoming incident energy) -> 0 < b ->
  (forall E' b', In (E', b') (incoming incident energy) -> 0 < b') ->
  0 <= total (s_junctions r) E /\
  total (s_junctions r) E + enters c E 1 * remains (flat_map layers_of (c_elements c)) E <= enters c E 1.
Proof. unfold spectral_response. cbv zeta. intros H Hs Hn Hsh Hrf E b Hi Hb Hall.
  destruct (walk (c_elements c) V _) as [w|] eqn:Hw; cbn [bindR] in H; [|discriminate H].
  apply ok_inj in H. subst r. cbn [s_junctions].
  assert (En : forall E b, entering c (E, b) = Light E (enters c E b) b 1).
  { intros E0 b0. unfold entering, enters, orelse. destruct (c_shading c); f_equal; f_equal; ring. }
  assert (Pos : forall E b, 0 < b -> 0 <= enters c E b).
  { intros E0 b0 H0. unfold enters. apply Rmult_le_pos; [apply Rmult_le_pos; [lra|]|].
    - destruct (c_shading c) as [s|] eqn:Sh; [|lra]. assert (X := Hsh s eq_refl). lra.
    - destruct (c_reflectivity c) as [f|] eqn:Rf; [|lra]. assert (X := Hrf f E0 eq_refl). lra. }
  assert (Q := walk_conserves _ _ _ _ Hs
    ltac:(rewrite map_map; replace (map (fun x => l_E (entering c x)) (incoming incident energy)) with (map fst (incoming incident energy)) by (apply map_ext; intros [E0 b0]; reflexivity); exact Hn)
    ltac:(intros l Hl; apply in_map_iff in Hl; destruct Hl as ([E0 b0] & <- & H0); rewrite En; cbn [l_bs l_b0]; assert (P := Hall _ _ H0); split; [apply Pos; exact P|exact P])
    Hw (entering c (E, b)) (in_map _ _ _ Hi)).
  rewrite En in Q. cbn [l_E l_bs l_b0] in Q. destruct Q as [Q1 Q2]. split; [exact Q1|].
  assert (S1 : enters c E b = enters c E 1 * b) by (unfold enters; ring). rewrite S1 in Q2.
  apply (Rmult_le_reg_r b); [exact Hb|]. nra. Qed.

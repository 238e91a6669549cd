(** Properties of photocurrents and quantum efficiencies of the depletion approximation, C186 (the model is
    DepLightModel.v). *)
From Coq Require Import Reals Lra Lia String List Bool Arith.
From Coquelicot Require Import Coquelicot.
From Verif Require Import Common PhysConst NpModel DetBalModel DepletionModel DepletionProps2 DepletionProps3 DepLightModel.
From Verif Require QwUnitModel QwUnitProps QwUnitProps4.
From Coq Require Import List.
Import ListNotations.
Open Scope R_scope.
Open Scope list_scope.

(** * Specification *)
Definition x_top (pol : polarity) (p : dep_par) : R := match pol with PN => p_xp p | NP => p_xn p end.
Definition x_bottom (pol : polarity) (p : dep_par) : R := match pol with PN => p_xn p | NP => p_xp p end.
(** Emitter, intrinsic region if there is one, and base follow each other in the junction. *)
Definition fits (pol : polarity) (p : dep_par) (l : place) : Prop :=
  (l_bottom l < length (l_widths l))%nat
  /\ nth (l_top l) (l_widths l) 0 = x_top pol p /\ nth (l_bottom l) (l_widths l) 0 = x_bottom pol p
  /\ (l_bottom l = S (l_top l) /\ p_xi p = 0 \/ l_bottom l = S (S (l_top l)) /\ nth (S (l_top l)) (l_widths l) 0 = p_xi p).
Definition sane (p : dep_par) : Prop :=
  0 <= p_xn p /\ 0 <= p_xp p /\ 0 <= p_xi p /\ 0 < p_esn p /\ 0 < p_esp p /\ 0 < p_Na p /\ 0 < p_Nd p.

(** * Regions *)
Lemma cum_S ws k : (k < length ws)%nat -> cum ws (S k) = cum ws k + nth k ws 0.
Proof.
  unfold cum. revert k. induction ws as [|w ws IH]; intros k Hk; [cbn in Hk; lia|].
  destruct k as [|k]; [cbn; lra|]. cbn [length] in Hk.
  change (w + fold_right Rplus 0 (firstn (S k) ws) = w + fold_right Rplus 0 (firstn k ws) + nth k ws 0).
  rewrite IH by lia. lra.
Qed.
Lemma clip_le w x : clip_width w x <= x.
Proof. unfold clip_width. destruct (Rlt_dec x w); lra. Qed.
Lemma clip_pos w x : 0 <= w -> 0 <= x -> 0 <= clip_width w x.
Proof. unfold clip_width. destruct (Rlt_dec x w); lra. Qed.
Lemma root_ge xi a : 0 <= xi -> 0 <= a -> 0 <= - xi + sqrt (xi ^ 2 + a).
Proof.
  intros Hx Ha. assert (xi <= sqrt (xi ^ 2 + a)); [|lra].
  rewrite <- (sqrt_pow2 xi) at 1 by exact Hx. apply sqrt_le_1; assert (P := pow2_ge_0 xi); lra.
Qed.
Lemma depleted_range one p V : sane p -> V <= built_in p ->
  0 <= fst (depleted one p V) <= p_xn p /\ 0 <= snd (depleted one p V) <= p_xp p.
Proof.
  intros (Hn & Hp & Hi & He1 & He2 & HNa & HNd) HV. unfold depleted, get_depletion_widths. cbn [fst snd or_attr j_wn j_wp j_one_sided].
  assert (Q := q_pos).
  assert (A : 0 <= 1 / p_Na p + 1 / p_Nd p) by (assert (0 < / p_Na p) by (apply Rinv_0_lt_compat; exact HNa); assert (0 < / p_Nd p) by (apply Rinv_0_lt_compat; exact HNd); lra).
  assert (B : forall es, 0 < es -> 0 <= 2 * es * (built_in p - V) / q * (1 / p_Na p + 1 / p_Nd p)).
  { intros es He. apply Rmult_le_pos; [|exact A]. apply Rmult_le_pos; [|left; apply Rinv_0_lt_compat, Q]. apply Rmult_le_pos; lra. }
  split; split; try apply clip_le; apply clip_pos; try assumption.
  - unfold wn_formula. destruct one; [apply sqrt_pos|]. apply Rmult_le_pos; [apply root_ge; [exact Hi|apply B, He1]|].
    left. apply Rinv_0_lt_compat. assert (0 < p_Nd p / p_Na p) by (apply Rdiv_lt_0_compat; assumption). lra.
  - unfold wp_formula. destruct one; [apply sqrt_pos|]. apply Rmult_le_pos; [apply root_ge; [exact Hi|apply B, He2]|].
    left. apply Rinv_0_lt_compat. assert (0 < p_Na p / p_Nd p) by (apply Rdiv_lt_0_compat; assumption). lra.
Qed.
(** The neutral emitter, the depleted region and the neutral base follow each other without gaps from the start of
    the emitter to the end of the base, and the depleted one holds the intrinsic region. *)
Theorem C186_regions (one : bool) (pol : polarity) (p : dep_par) (l : place) (V : R) :
  fits pol p l -> sane p -> V <= built_in p ->
  let w := depleted one p V in
  let t := top_part pol p w in let b := bottom_part pol p w in
  let te := top_edges l t in let se := scr_edges l t b in let be := bottom_edges l b in
  fst te = cum (l_widths l) (l_top l) /\ snd te = fst se /\ snd se = fst be /\ snd be = cum (l_widths l) (S (l_bottom l))
  /\ fst te <= snd te /\ fst se <= snd se /\ fst be <= snd be
  /\ snd te - fst te = x_top pol p - t_w t /\ snd se - fst se = t_w t + p_xi p + t_w b /\ snd be - fst be = x_bottom pol p - t_w b
  /\ 0 <= t_w t <= x_top pol p /\ 0 <= t_w b <= x_bottom pol p.
Proof.
  intros (HL & HT & HB & HI) HS HV w t b te se be.
  destruct (depleted_range one p V HS HV) as [Hwn Hwp]. fold w in Hwn, Hwp.
  assert (T0 : 0 <= t_w t <= x_top pol p) by (unfold t; destruct pol; assumption).
  assert (B0 : 0 <= t_w b <= x_bottom pol p) by (unfold b; destruct pol; assumption).
  destruct HS as (_ & _ & Hi & _).
  assert (CT : cum (l_widths l) (S (l_top l)) = cum (l_widths l) (l_top l) + x_top pol p) by (rewrite cum_S, HT; [reflexivity|destruct HI as [[E _]|[E _]]; lia]).
  assert (CB : cum (l_widths l) (S (l_bottom l)) = cum (l_widths l) (l_bottom l) + x_bottom pol p) by (rewrite cum_S, HB; [reflexivity|lia]).
  assert (CI : cum (l_widths l) (l_bottom l) = cum (l_widths l) (S (l_top l)) + p_xi p).
  { destruct HI as [[E X]|[E X]]; rewrite E; [lra|]. rewrite cum_S, X; [reflexivity|lia]. }
  unfold te, se, be, top_edges, scr_edges, bottom_edges. cbn [fst snd].
  repeat split; try lra; rewrite ?CB, ?CI, ?CT; lra.
Qed.

(** * Meshes *)
Lemma mesh_facts (f : nat -> R) n : (forall i j, (i <= j)%nat -> f i <= f j) ->
  nondecreasing (map f (seq 0 (S n))) /\ last (map f (seq 0 (S n))) 0 = f n /\ hd 0 (map f (seq 0 (S n))) = f 0%nat
  /\ length (map f (seq 0 (S n))) = S n.
Proof.
  intro M. assert (N : forall i, (i < S n)%nat -> nth i (map f (seq 0 (S n))) 0 = f i).
  { intros i Hi. rewrite (nth_indep _ 0 (f 0%nat)) by (rewrite map_length, seq_length; exact Hi). rewrite map_nth, seq_nth by exact Hi. reflexivity. }
  split; [|split; [|split]].
  - intros i j Hij. rewrite map_length, seq_length in Hij. rewrite !N by lia. apply M. lia.
  - rewrite QwUnitProps.last_nth1, map_length, seq_length, N by lia. f_equal. lia.
  - reflexivity.
  - rewrite map_length, seq_length. reflexivity.
Qed.
Lemma INR1001 : INR 1001 = 1001. Proof. rewrite INR_IZR_INZ. reflexivity. Qed.
Lemma INR1000 : INR 1000 = 1000. Proof. rewrite INR_IZR_INZ. reflexivity. Qed.
Lemma open_facts a b : a <= b ->
  let zz := linspace_open a b 1001 in
  nondecreasing zz /\ last zz 0 - hd 0 zz = (b - a) * (1000 / 1001) /\ zz <> [] /\ (forall z, In z zz -> a <= z <= b).
Proof.
  intros H zz. unfold zz, linspace_open.
  assert (M : forall i j, (i <= j)%nat -> a + (b - a) * INR i / INR 1001 <= a + (b - a) * INR j / INR 1001).
  { intros i j Hij. apply le_INR in Hij. rewrite INR1001. unfold Rdiv. apply Rplus_le_compat_l, Rmult_le_compat_r; [lra|]. apply Rmult_le_compat_l; lra. }
  destruct (mesh_facts (fun i => a + (b - a) * INR i / INR 1001) 1000 M) as [A [B [C D]]].
  split; [exact A|]. split; [rewrite B, C, INR1001, INR1000; change (INR 0) with 0; lra|]. split; [intro E; rewrite E in D; discriminate D|].
  intros z Hz. apply in_map_iff in Hz. destruct Hz as [i [<- Hi]]. apply in_seq in Hi. rewrite INR1001.
  assert (I1 := pos_INR i). assert (I2 : INR i <= 1001) by (rewrite <- INR1001; apply le_INR; lia).
  assert (0 <= (b - a) * INR i / 1001) by (apply Rmult_le_pos; [apply Rmult_le_pos; lra|lra]).
  assert ((b - a) * INR i / 1001 <= b - a); [|lra].
  assert ((b - a) * INR i <= (b - a) * 1001) by (apply Rmult_le_compat_l; lra). lra.
Qed.
Lemma closed_facts a b : a <= b ->
  let zz := linspace a b 1001 in
  nondecreasing zz /\ last zz 0 - hd 0 zz = b - a /\ zz <> [] /\ (forall z, In z zz -> a <= z <= b).
Proof.
  intros H zz. unfold zz, linspace. replace (INR (1001 - 1)) with 1000 by (change (1001 - 1)%nat with 1000%nat; symmetry; exact INR1000).
  assert (M : forall i j, (i <= j)%nat -> a + (b - a) * INR i / 1000 <= a + (b - a) * INR j / 1000).
  { intros i j Hij. apply le_INR in Hij. unfold Rdiv. apply Rplus_le_compat_l, Rmult_le_compat_r; [lra|]. apply Rmult_le_compat_l; lra. }
  destruct (mesh_facts (fun i => a + (b - a) * INR i / 1000) 1000 M) as [A [B [C D]]].
  split; [exact A|]. split; [rewrite B, C, INR1000; change (INR 0) with 0; lra|]. split; [intro E; rewrite E in D; discriminate D|].
  intros z Hz. apply in_map_iff in Hz. destruct Hz as [i [<- Hi]]. apply in_seq in Hi.
  assert (I1 := pos_INR i). assert (I2 : INR i <= 1000) by (rewrite <- INR1000; apply le_INR; lia).
  assert (0 <= (b - a) * INR i / 1000) by (apply Rmult_le_pos; [apply Rmult_le_pos; lra|lra]).
  assert ((b - a) * INR i / 1000 <= b - a); [|lra].
  assert ((b - a) * INR i <= (b - a) * 1000) by (apply Rmult_le_compat_l; lra). lra.
Qed.
Lemma scr_between g ph a b lo hi : a <= b -> 0 <= ph -> (forall z, a <= z <= b -> lo <= g z <= hi) ->
  lo * ph * ((b - a) * (1000 / 1001)) <= scr_current g ph (a, b) <= hi * ph * ((b - a) * (1000 / 1001)).
Proof.
  intros H Hp Hg. unfold scr_current. cbn [fst snd]. destruct (open_facts a b H) as [A [B [C D]]]. cbv zeta in *. rewrite <- B.
  apply QwUnitProps.trapz_between; [apply map_length| |exact A|exact C].
  intros v Hv. apply in_map_iff in Hv. destruct Hv as [z [<- Hz]]. specialize (Hg z (D z Hz)). split; apply Rmult_le_compat_r; lra.
Qed.
Lemma absorbed_between g ph l lo hi :
  let a := cum (l_widths l) (l_top l) in let b := cum (l_widths l) (S (l_bottom l)) in
  a <= b -> 0 <= ph -> (forall z, a <= z <= b -> lo <= g z <= hi) ->
  lo * ph * (b - a) <= absorbed_current g ph l <= hi * ph * (b - a).
Proof.
  intros a b H Hp Hg. unfold absorbed_current. fold a b. destruct (closed_facts a b H) as [A [B [C D]]]. cbv zeta in *. rewrite <- B.
  apply QwUnitProps.trapz_between; [apply map_length| |exact A|exact C].
  intros v Hv. apply in_map_iff in Hv. destruct Hv as [z [<- Hz]]. specialize (Hg z (D z Hz)). split; apply Rmult_le_compat_r; lra.
Qed.

(** * Collection *)
Lemma kernel_cont (k g u : R -> R) c x : ex_derive k x -> ex_derive u x -> (forall z, continuous g z) ->
  continuous (fun x => k x * (g (u x) * c)) x.
Proof.
  intros Hk Hu Hg. apply (continuous_mult (K := R_AbsRing)).
  - exact (ex_derive_continuous (V := R_NormedModule) k x Hk).
  - apply (continuous_mult (K := R_AbsRing) (fun x => g (u x)) (fun _ => c)).
    + apply continuous_comp; [exact (ex_derive_continuous (V := R_NormedModule) u x Hu)|apply Hg].
    + apply continuous_const.
Qed.
Lemma green_cont xa xb g D L S ph sd x : (forall z, continuous g z) -> continuous (green_integrand xa xb g D L S ph sd) x.
Proof.
  intro Hg. unfold green_integrand. destruct (Rlt_dec 100 ((xb - xa) / L)), sd.
  - apply (kernel_cont (fun x => - exp ((xa - x) / L)) g (fun x => xa + xb - x) (ph / D)); [unfold Rdiv; auto_derive; exact I|auto_derive; exact I|exact Hg].
  - apply (kernel_cont (fun x => exp ((xa - x) / L)) g (fun x => x) (ph / D)); [unfold Rdiv; auto_derive; exact I|auto_derive; exact I|exact Hg].
  - apply (kernel_cont (fun x => cosh ((xb - x) / L) + S / D * L * sinh ((xb - x) / L)) g (fun x => xa + xb - x) (ph / D)); [unfold cosh, sinh, Rdiv; auto_derive; exact I|auto_derive; exact I|exact Hg].
  - apply (kernel_cont (fun x => cosh ((xb - x) / L) - - (S / D * L) * sinh ((xb - x) / L)) g (fun x => x) (ph / D)); [unfold cosh, sinh, Rdiv; auto_derive; exact I|auto_derive; exact I|exact Hg].
Qed.
Lemma diffusion_bounds g ph t a b sd : a <= b -> 0 < t_d t -> 0 < t_l t -> 0 <= t_s t -> 0 <= ph ->
  (forall z, continuous g z) -> (forall z, 0 <= g z) ->
  0 <= diffusion_current g ph t (a, b) sd <= RInt g a b * ph.
Proof.
  intros H HD HL HS Hp Hc Hg. unfold diffusion_current. cbn [fst snd]. set (m := b - (b - a) / 1001).
  assert (M : a <= m <= b) by (unfold m; split; lra).
  assert (X : forall c d, ex_RInt g c d) by (intros; apply (ex_RInt_continuous (V := R_CompleteNormedModule)); intros; apply Hc).
  assert (G : is_RInt (fun z => g z * ph) a m (RInt g a m * ph)).
  { apply (is_RInt_ext (fun z => scal ph (g z))); [intros; unfold scal; cbn; unfold mult; cbn; ring|].
    replace (RInt g a m * ph) with (scal ph (RInt g a m)) by (unfold scal; cbn; unfold mult; cbn; ring).
    apply (is_RInt_scal (V := R_NormedModule)), (RInt_correct (V := R_CompleteNormedModule)), X. }
  assert (I : is_RInt (green_integrand a m g (t_d t) (t_l t) (t_s t) ph sd) a m (RInt (green_integrand a m g (t_d t) (t_l t) (t_s t) ph sd) a m)).
  { apply (RInt_correct (V := R_CompleteNormedModule)), (ex_RInt_continuous (V := R_CompleteNormedModule)). intros; apply green_cont, Hc. }
  assert (K := C79_collection_bounded a m g (t_d t) (t_l t) (t_s t) ph sd _ _ ltac:(lra) HD HL HS Hp ltac:(intros; apply Hg) I G).
  split; [apply K|]. eapply Rle_trans; [apply K|]. apply Rmult_le_compat_r; [exact Hp|].
  assert (C := RInt_Chasles g a m b (X _ _) (X _ _)). change (RInt g a m + RInt g m b = RInt g a b) in C.
  assert (0 <= RInt g m b) by (apply RInt_ge_0; [lra|apply X|intros; apply Hg]). lra.
Qed.
Definition good (p : dep_par) : Prop :=
  0 < p_ln p /\ 0 < p_lp p /\ 0 < p_dn p /\ 0 < p_dp p /\ 0 <= p_sn p /\ 0 <= p_sp p.
(** Neutral regions give no more carriers than are generated in them; the depleted one gives its carriers up to
    the last of 1001 slices, between the extremes of the generation in it. *)
Theorem C186_collected (one : bool) (pol : polarity) (p : dep_par) (l : place) (g : R -> R) (ph V lo hi : R) :
  fits pol p l -> sane p -> good p -> V <= built_in p -> 0 <= ph -> (forall z, continuous g z) -> (forall z, 0 <= g z) ->
  let w := depleted one p V in
  let a := cum (l_widths l) (l_top l) in let b := cum (l_widths l) (S (l_bottom l)) in
  let a2 := a + x_top pol p - t_w (top_part pol p w) in let b2 := b - x_bottom pol p + t_w (bottom_part pol p w) in
  (forall z, a2 <= z <= b2 -> lo <= g z <= hi) ->
  let js := photocurrents pol p l w g ph in
  a <= a2 <= b2 /\ b2 <= b
  /\ 0 <= fst (fst js) <= RInt g a a2 * ph /\ 0 <= snd (fst js) <= RInt g b2 b * ph
  /\ lo * ph * ((b2 - a2) * (1000 / 1001)) <= snd js <= hi * ph * ((b2 - a2) * (1000 / 1001)).
Proof.
  intros HF HS HG HV Hp Hc Hg w a b a2 b2 Hlh js.
  destruct (C186_regions one pol p l V HF HS HV) as (R1 & R2 & R3 & R4 & R5 & R6 & R7 & R8 & R9 & R10 & _).
  fold w in R1, R2, R3, R4, R5, R6, R7, R8, R9, R10. fold a in R1. fold b in R4.
  set (t := top_part pol p w) in *. set (bt := bottom_part pol p w) in *.
  assert (T : top_edges l t = (a, a2)) by (apply injective_projections; cbn [fst snd]; unfold a2; lra).
  assert (B : bottom_edges l bt = (b2, b)) by (apply injective_projections; cbn [fst snd]; unfold b2; lra).
  assert (E : scr_edges l t bt = (a2, b2)) by (apply injective_projections; [rewrite <- R2, T|rewrite R3, B]; reflexivity).
  destruct HG as (G1 & G2 & G3 & G4 & G5 & G6).
  rewrite T in R5. rewrite E in R6. rewrite B in R7. cbn [fst snd] in R5, R6, R7.
  unfold js, photocurrents. fold t bt. cbn [fst snd]. rewrite T, B, E.
  split; [lra|]. split; [lra|]. split; [|split; [|apply scr_between; assumption]].
  - apply diffusion_bounds; try assumption; unfold t; destruct pol; assumption.
  - apply diffusion_bounds; try assumption; unfold bt; destruct pol; assumption.
Qed.

(** * Quantum efficiencies *)
Lemma diffusion_flux g ph t ab sd : 0 <= ph -> (forall z, continuous g z) -> diffusion_current g ph t ab sd = ph * diffusion_current g 1 t ab sd.
Proof.
  intros Hp Hc. unfold diffusion_current. cbv zeta. set (xa := fst ab). set (xb := snd ab - _).
  assert (E : RInt (green_integrand xa xb g (t_d t) (t_l t) (t_s t) ph sd) xa xb = ph * RInt (green_integrand xa xb g (t_d t) (t_l t) (t_s t) 1 sd) xa xb).
  { transitivity (RInt (fun x => scal ph (green_integrand xa xb g (t_d t) (t_l t) (t_s t) 1 sd x)) xa xb).
    - apply RInt_ext. intros x _. unfold scal; cbn; unfold mult; cbn. unfold green_integrand, conv_exp_top, conv_exp_bottom, conv_green_top, conv_green_bottom.
      destruct (Rlt_dec 100 _), sd; unfold Rdiv; ring.
    - apply (RInt_scal (V := R_CompleteNormedModule)). apply (ex_RInt_continuous (V := R_CompleteNormedModule)). intros; apply green_cont, Hc. }
  rewrite E. unfold Rdiv. rewrite Rmult_assoc, (Rabs_mult ph), (Rabs_pos_eq ph Hp). ring.
Qed.
Lemma trapz_flux g ph zz : np_trapz (map (fun z => g z * ph) zz) zz = ph * np_trapz (map (fun z => g z * 1) zz) zz.
Proof.
  rewrite <- np_trapz_scale, map_map. f_equal. apply map_ext. intro z. ring.
Qed.
Definition pack (ph jt jb js a : R) : qe := mkQe ((jt + jb + js) / ph) (jt / ph) (jb / ph) (js / ph) (if Req_EM_T a 0 then 0 else (jt + jb + js) / a).
Lemma qe_pack ph one pol p l g : let js := photocurrents pol p l (depleted one p 0) g ph in
  qe_at ph one pol p l g = pack ph (fst (fst js)) (snd (fst js)) (snd js) (absorbed_current g ph l).
Proof. reflexivity. Qed.
Lemma photocurrents_flux pol p l w g ph : 0 <= ph -> (forall z, continuous g z) ->
  let a := photocurrents pol p l w g ph in let b := photocurrents pol p l w g 1 in
  fst (fst a) = ph * fst (fst b) /\ snd (fst a) = ph * snd (fst b) /\ snd a = ph * snd b.
Proof.
  intros Hp Hc. unfold photocurrents. cbn [fst snd]. split; [|split]; [apply diffusion_flux; assumption..|]. apply trapz_flux.
Qed.
Lemma absorbed_flux g ph l : absorbed_current g ph l = ph * absorbed_current g 1 l.
Proof. apply trapz_flux. Qed.
Lemma pack_flux ph x y z a : 0 < ph -> pack ph (ph * x) (ph * y) (ph * z) (ph * a) = pack 1 x y z a.
Proof.
  intro Hp. unfold pack. f_equal; try (field; lra).
  destruct (Req_EM_T (ph * a) 0) as [Z|NZ], (Req_EM_T a 0) as [Z2|NZ2]; try reflexivity.
  - exfalso. apply Rmult_integral in Z. lra.
  - exfalso. apply NZ. rewrite Z2. ring.
  - field. split; [exact NZ2|lra].
Qed.
Lemma pack_spec x y z a : let e := pack 1 x y z a in
  eqe e = eqe_emitter e + eqe_base e + eqe_scr e /\ (a <> 0 -> iqe e * a = eqe e) /\ (a = 0 -> iqe e = 0).
Proof.
  unfold pack. cbn [eqe eqe_emitter eqe_base eqe_scr iqe]. split; [field|]. split.
  - intro NZ. destruct (Req_EM_T _ 0); [contradiction|]. field. exact NZ.
  - intro Z. destruct (Req_EM_T _ 0); [reflexivity|contradiction].
Qed.
(** The quantum efficiencies do not depend on the flux of photons that is used for them; the total is the sum of
    emitter, base and depleted region; the internal one is the total over the absorption, and zero without any. *)
Theorem C186_efficiencies (one : bool) (pol : polarity) (p : dep_par) (l : place) (g : R -> R) :
  (forall z, continuous g z) ->
  let e := qe_depletion one pol p l g in
  (forall ph, 0 < ph -> qe_at ph one pol p l g = e)
  /\ eqe e = eqe_emitter e + eqe_base e + eqe_scr e
  /\ (absorbed_current g 1 l <> 0 -> iqe e * absorbed_current g 1 l = eqe e)
  /\ (absorbed_current g 1 l = 0 -> iqe e = 0).
Proof.
  intros Hc e.
  assert (F : forall ph, 0 < ph -> qe_at ph one pol p l g = qe_at 1 one pol p l g).
  { intros ph Hp. rewrite !qe_pack. cbv zeta. destruct (photocurrents_flux pol p l (depleted one p 0) g ph ltac:(lra) Hc) as [E1 [E2 E3]].
    rewrite E1, E2, E3, (absorbed_flux g ph). apply pack_flux, Hp. }
  assert (P : 0 < qe_flux) by (unfold qe_flux; apply pow_lt; lra).
  assert (E1 : e = qe_at 1 one pol p l g) by (apply F, P).
  split; [intros ph Hp; rewrite E1; apply F, Hp|]. rewrite E1, qe_pack. apply pack_spec.
Qed.
(** The external efficiency is not negative; emitter and base do not exceed the absorption in them, the depleted
    region does not exceed the largest absorption in it. *)
Theorem C186_eqe (one : bool) (pol : polarity) (p : dep_par) (l : place) (g : R -> R) (hi : R) :
  fits pol p l -> sane p -> good p -> 0 <= built_in p -> (forall z, continuous g z) -> (forall z, 0 <= g z <= hi) ->
  let e := qe_depletion one pol p l g in let w := depleted one p 0 in
  let a := cum (l_widths l) (l_top l) in let b := cum (l_widths l) (S (l_bottom l)) in
  let wt := t_w (top_part pol p w) in let wb := t_w (bottom_part pol p w) in
  0 <= eqe_emitter e <= RInt g a (a + x_top pol p - wt) /\ 0 <= eqe_base e <= RInt g (b - x_bottom pol p + wb) b
  /\ 0 <= eqe_scr e <= hi * (wt + p_xi p + wb) /\ 0 <= eqe e <= hi * (b - a).
Proof.
  intros HF HS HG HV Hc Hg e w a b wt wb.
  destruct (C186_efficiencies one pol p l g Hc) as [F [S _]]. fold e in F, S.
  specialize (F 1 ltac:(lra)). rewrite <- F in S |- *. clear F e.
  destruct (C186_collected one pol p l g 1 0 0 hi HF HS HG HV ltac:(lra) Hc ltac:(intro; apply Hg) ltac:(intros; apply Hg)) as (A1 & A2 & A3 & A4 & A5).
  fold w a b wt wb in A1, A2, A3, A4, A5.
  destruct (C186_regions one pol p l 0 HF HS HV) as (R1 & _ & R3 & R4 & _ & _ & _ & R8 & R9 & R10 & W1 & W2).
  fold w wt wb in R1, R3, R4, R8, R9, R10, W1, W2.
  assert (LEN : b - x_bottom pol p + wb - (a + x_top pol p - wt) = wt + p_xi p + wb).
  { unfold scr_edges, top_edges, bottom_edges in *. cbn [fst snd] in *. fold wt wb a b in R1, R3, R4, R8, R9, R10. lra. }
  rewrite !Rmult_1_r in A3, A4. rewrite Rmult_0_l, Rmult_0_l, Rmult_1_r, LEN in A5.
  assert (H0 : 0 <= hi) by (specialize (Hg 0); lra). destruct HS as (_ & _ & Hi & _).
  assert (PP : 0 <= hi * (wt + p_xi p + wb)) by (apply Rmult_le_pos; lra).
  revert S. unfold qe_at. cbn [eqe eqe_emitter eqe_base eqe_scr]. fold w.
  set (js := photocurrents pol p l w g 1) in *. intros _.
  assert (X : forall c d, ex_RInt g c d) by (intros; apply (ex_RInt_continuous (V := R_CompleteNormedModule)); intros; apply Hc).
  assert (UP : forall c d, c <= d -> RInt g c d <= hi * (d - c)).
  { intros c d Hcd. replace (hi * (d - c)) with (RInt (fun _ => hi) c d) by (rewrite RInt_const; unfold scal; cbn; unfold mult; cbn; ring).
    apply RInt_le; [exact Hcd|apply X|apply ex_RInt_const|intros; apply Hg]. }
  assert (U1 := UP a (a + x_top pol p - wt) ltac:(lra)). assert (U2 := UP (b - x_bottom pol p + wb) b ltac:(lra)).
  assert (J : 0 <= snd js <= hi * (wt + p_xi p + wb)) by lra.
  repeat split; try lra.
  assert (T : hi * (b - a) = hi * (a + x_top pol p - wt - a) + hi * (b - (b - x_bottom pol p + wb)) + hi * (wt + p_xi p + wb)) by (rewrite <- LEN; ring).
  lra.
Qed.
(** In a junction that is depleted all over, under uniform generation, every carrier should be collected; the last
    of 1001 slices is left out. *)
Theorem C186_depleted (one : bool) (pol : polarity) (p : dep_par) (l : place) (g0 : R) :
  fits pol p l -> sane p -> 0 <= built_in p -> depleted one p 0 = (p_xn p, p_xp p) -> 0 < g0 -> 0 < p_xn p ->
  let e := qe_depletion one pol p l (fun _ => g0) in
  iqe e = 1000 / 1001 /\ eqe e = g0 * (p_xn p + p_xi p + p_xp p) * (1000 / 1001).
Proof.
  intros HF HS HV HD Hg Hx e.
  destruct (C186_efficiencies one pol p l (fun _ => g0) (fun z => continuous_const g0 z)) as [F [_ [Q _]]]. fold e in F, Q.
  destruct (C186_regions one pol p l 0 HF HS HV) as (R1 & R2 & R3 & R4 & R5 & R6 & R7 & R8 & R9 & R10 & _).
  rewrite HD in R1, R2, R3, R4, R5, R6, R7, R8, R9, R10.
  assert (Z : forall t ab sd, snd ab - fst ab = 0 -> diffusion_current (fun _ => g0) 1 t ab sd = 0).
  { intros t ab sd H. unfold diffusion_current. replace (snd ab - (snd ab - fst ab) / 1001) with (fst ab) by lra.
    rewrite RInt_point. unfold zero; cbn. unfold Rdiv. rewrite Rmult_0_l, Rabs_R0. ring. }
  set (a := cum (l_widths l) (l_top l)) in *. set (b := cum (l_widths l) (S (l_bottom l))) in *.
  set (t := top_part pol p (p_xn p, p_xp p)) in *. set (bt := bottom_part pol p (p_xn p, p_xp p)) in *.
  assert (W1 : t_w t = x_top pol p) by (unfold t; destruct pol; reflexivity).
  assert (W2 : t_w bt = x_bottom pol p) by (unfold bt; destruct pol; reflexivity).
  assert (W3 : x_top pol p + p_xi p + x_bottom pol p = p_xn p + p_xi p + p_xp p) by (destruct pol; cbn; lra).
  assert (E : scr_edges l t bt = (a, b)) by (apply injective_projections; cbn [fst snd]; [|rewrite R3]; lra).
  rewrite E in R6, R9. cbn [fst snd] in R6, R9.
  assert (SC : scr_current (fun _ => g0) 1 (a, b) = g0 * ((b - a) * (1000 / 1001))).
  { assert (K := scr_between (fun _ => g0) 1 a b g0 g0 R6 ltac:(lra) ltac:(intros; lra)). lra. }
  assert (AB : absorbed_current (fun _ => g0) 1 l = g0 * (b - a)).
  { assert (K := absorbed_between (fun _ => g0) 1 l g0 g0). cbv zeta in K. fold a b in K. specialize (K R6 ltac:(lra) ltac:(intros; lra)). lra. }
  assert (EQ : eqe e = g0 * (b - a) * (1000 / 1001)).
  { rewrite <- (F 1 ltac:(lra)). unfold qe_at, photocurrents. cbn [eqe fst snd]. rewrite HD. fold t bt. rewrite (Z t) by lra. rewrite (Z bt) by lra.
    rewrite E, SC. field. }
  destruct HS as (_ & Hp & Hi & _).
  assert (P : 0 < g0 * (b - a)) by (apply Rmult_lt_0_compat; lra).
  split; [|rewrite EQ; f_equal; f_equal; lra].
  rewrite AB, EQ in Q. specialize (Q ltac:(lra)). apply (Rmult_eq_reg_r (g0 * (b - a))); lra.
Qed.

(** Properties C79 (photocurrent of a neutral region) and C80 (Sah's integral). *)
From Coq Require Import Reals String List Arith Bool Lra Lia.
From Coquelicot Require Import Coquelicot.
From Coq Require Import List.
From Verif Require Import Common PhysConst DepletionModel DepletionProps DepletionProps2.
Import ListNotations.
Open Scope R_scope.
Open Scope list_scope.

(** * C79 *)
(** The two solutions of K'' = K / L^2 used below, with their derivatives. *)
Definition Kf (x0 L k x : R) : R := cosh ((x - x0) / L) + k * sinh ((x - x0) / L).
Definition Kf' (x0 L k x : R) : R := (sinh ((x - x0) / L) + k * cosh ((x - x0) / L)) / L.
Lemma Kf_d x0 L k x : L <> 0 -> is_derive (Kf x0 L k) x (Kf' x0 L k x).
Proof. intros H. unfold Kf, Kf', cosh, sinh. auto_derive; [easy|]. unfold Rdiv, Rminus. field. easy. Qed.
Lemma Kf'_d x0 L k x : L <> 0 -> is_derive (Kf' x0 L k) x (Kf x0 L k x / L ^ 2).
Proof. intros H. unfold Kf, Kf', cosh, sinh. auto_derive; [easy|]. unfold Rdiv, Rminus. field. easy. Qed.
Lemma Kf_cont x0 L k x : L <> 0 -> continuous (Kf x0 L k) x.
Proof. intros H. apply (ex_derive_continuous (Kf x0 L k)). eexists. now apply Kf_d. Qed.

(** Green's identity for the diffusion equation on an interval. *)
Lemma green_identity xa xb D L y0 gph y y' x0 k :
  xa <= xb -> 0 < D -> 0 < L ->
  (forall x, xa <= x <= xb -> continuous gph x) ->
  (forall x, xa <= x <= xb -> is_derive y x (y' x)) ->
  (forall x, xa <= x <= xb -> is_derive y' x (bvp_rhs gph D L y0 y x)) ->
  is_RInt (fun x => - (Kf x0 L k x * (gph x / D))) xa xb
    ((y' xb * Kf x0 L k xb - (y xb - y0) * Kf' x0 L k xb) - (y' xa * Kf x0 L k xa - (y xa - y0) * Kf' x0 L k xa)).
Proof.
  intros Hab HD HL Hg Hy Hy'.
  apply (is_RInt_derive (fun x => y' x * Kf x0 L k x - (y x - y0) * Kf' x0 L k x)).
  - intros x Hx. rewrite Rmin_left, Rmax_right in Hx by easy.
    assert (A := Hy x Hx). assert (B := Hy' x Hx). assert (C := Kf_d x0 L k x ltac:(lra)). assert (E := Kf'_d x0 L k x ltac:(lra)).
    auto_derive.
    + repeat split; try (eexists; eassumption).
    + assert (A1 : Derive (fun x1 : R => y x1) x = y' x) by exact (is_derive_unique y x _ A).
      assert (B1 : Derive (fun x1 : R => y' x1) x = _) by exact (is_derive_unique y' x _ B).
      assert (C1 : Derive (fun x1 : R => Kf x0 L k x1) x = _) by exact (is_derive_unique (Kf x0 L k) x _ C).
      assert (E1 : Derive (fun x1 : R => Kf' x0 L k x1) x = _) by exact (is_derive_unique (Kf' x0 L k) x _ E).
      rewrite A1, B1, C1, E1.
      unfold bvp_rhs. field. lra.
  - intros x Hx. rewrite Rmin_left, Rmax_right in Hx by easy.
    apply (continuous_opp (fun x => Kf x0 L k x * (gph x / D))). apply (continuous_mult (Kf x0 L k) (fun x => gph x / D)).
    + apply Kf_cont. lra.
    + apply (continuous_mult gph (fun _ => / D)); [now apply Hg|apply continuous_const].
Qed.

Lemma cosh_opp x : cosh (- x) = cosh x.
Proof. unfold cosh. rewrite Ropp_involutive. lra. Qed.
Lemma sinh_opp x : sinh (- x) = - sinh x.
Proof. unfold sinh. rewrite Ropp_involutive. lra. Qed.

Lemma reflect_int (f : R -> R) a b l : is_RInt f a b l -> is_RInt (fun x => f (a + b - x)) a b l.
Proof.
  intros H. assert (K : is_RInt (fun x => (-1) * f ((-1) * x + (a + b))) b a l).
  { apply (is_RInt_comp_lin f (-1) (a + b) b a).
    replace (-1 * b + (a + b)) with a by ring. replace (-1 * a + (a + b)) with b by ring. exact H. }
  apply is_RInt_swap in K. apply is_RInt_opp in K.
  rewrite opp_opp in K. eapply is_RInt_ext; [|exact K]. intros x _. cbn.
  replace (-1 * x + (a + b)) with (a + b - x) by ring. unfold opp; cbn. ring.
Qed.

Lemma green_top xa xb g D L S ph : ((xb - xa) / L <= 100) ->
  forall x, green_integrand xa xb g D L S ph Top x = (fun z => Kf xa L (S / D * L) z * (g z * (ph / D))) (xa + xb - x).
Proof.
  intros H x. unfold green_integrand. destruct Rlt_dec; [lra|]. unfold conv_green_top, Kf.
  replace ((xa + xb - x - xa) / L) with ((xb - x) / L) by (f_equal; ring). easy.
Qed.
Lemma green_bottom xa xb g D L S ph : ((xb - xa) / L <= 100) ->
  forall x, green_integrand xa xb g D L S ph Bottom x = Kf xb L (- (S / D * L)) x * (g x * (ph / D)).
Proof.
  intros H x. unfold green_integrand. destruct Rlt_dec; [lra|]. unfold conv_green_bottom, Kf.
  replace ((x - xb) / L) with (- ((xb - x) / L)) by (unfold Rdiv; ring). rewrite cosh_opp, sinh_opp. ring.
Qed.

(** C79: the default (Green's function) mode and the bvp mode of the photocurrent give
    the same gradient at the edge of the depletion region: whatever solves the boundary
    value problem of the bvp mode has there the gradient the Green's function mode
    computes. *)
Theorem C79_green_solves_bvp_partial : forall xa xb g D L S ph y0 y y' I sd,
  xa <= xb -> 0 < D -> 0 < L -> 0 <= S -> (xb - xa) / L <= 100 ->
  (forall x, xa <= x <= xb -> continuous g x) ->
  (forall x, xa <= x <= xb -> is_derive y x (y' x)) ->
  (forall x, xa <= x <= xb -> is_derive y' x (bvp_rhs (fun z => g z * ph) D L y0 y x)) ->
  bvp_bc xa xb D S y0 y y' sd ->
  is_RInt (green_integrand xa xb g D L S ph sd) xa xb I ->
  I / green_cp xa xb D L S sd = bvp_out xa xb y' sd.
Proof.
  intros xa xb g D L S ph y0 y y' I sd Hab HD HL HS Hx Hg Hy Hy' Hbc HI.
  assert (Hg' : forall x, xa <= x <= xb -> continuous (fun z => g z * ph) x).
  { intros x Hxx. apply (continuous_mult g (fun _ => ph)); [now apply Hg|apply continuous_const]. }
  assert (Hden : 0 < cosh ((xb - xa) / L) + S / D * L * sinh ((xb - xa) / L)).
  { assert (A := cosh_pos ((xb - xa) / L)). assert (B : 0 <= sinh ((xb - xa) / L)) by (apply sinh_nonneg, div_nonneg; lra).
    assert (C : 0 <= S / D * L) by (apply Rmult_le_pos; [apply div_nonneg; lra|lra]).
    assert (E := Rmult_le_pos _ _ C B). lra. }
  destruct sd.
  - assert (G := green_identity xa xb D L y0 _ y y' xa (S / D * L) Hab HD HL Hg' Hy Hy').
    apply is_RInt_opp in G. apply reflect_int in G.
    assert (E : is_RInt (green_integrand xa xb g D L S ph Top) xa xb (- (y' xb * Kf xa L (S / D * L) xb - (y xb - y0) * Kf' xa L (S / D * L) xb -
         (y' xa * Kf xa L (S / D * L) xa - (y xa - y0) * Kf' xa L (S / D * L) xa)))).
    { eapply is_RInt_ext; [|exact G]. intros x _. rewrite green_top by easy. cbn. unfold opp; cbn. field. lra. }
    assert (U : I = _) by (rewrite <- (is_RInt_unique _ _ _ _ HI); exact (is_RInt_unique _ _ _ _ E)). clear G E HI.
    destruct Hbc as [B1 B2]. cbn [bvp_out]. unfold green_cp. destruct Rlt_dec; [lra|].
    assert (K1 : Kf xa L (S / D * L) xa = 1). { unfold Kf. replace ((xa - xa) / L) with 0 by (field; lra). rewrite cosh_0', sinh_0'. ring. }
    assert (K2 : Kf' xa L (S / D * L) xa = S / D). { unfold Kf'. replace ((xa - xa) / L) with 0 by (field; lra). rewrite cosh_0', sinh_0'. field. lra. }
    rewrite K1, K2 in U. rewrite B2 in U. replace (y' xa) with (S / D * (y xa - y0)) in U by lra.
    unfold Kf in U. rewrite U. generalize (Kf' xa L (S / D * L) xb). set (r := S / D) in *. clearbody r. set (k := r * L) in *. clearbody k. intros. field. lra.
  - assert (G := green_identity xa xb D L y0 _ y y' xb (- (S / D * L)) Hab HD HL Hg' Hy Hy').
    apply is_RInt_opp in G.
    assert (E : is_RInt (green_integrand xa xb g D L S ph Bottom) xa xb (- (y' xb * Kf xb L (- (S / D * L)) xb - (y xb - y0) * Kf' xb L (- (S / D * L)) xb -
         (y' xa * Kf xb L (- (S / D * L)) xa - (y xa - y0) * Kf' xb L (- (S / D * L)) xa)))).
    { eapply is_RInt_ext; [|exact G]. intros x _. rewrite green_bottom by easy. cbn. unfold opp; cbn. field. lra. }
    assert (U : I = _) by (rewrite <- (is_RInt_unique _ _ _ _ HI); exact (is_RInt_unique _ _ _ _ E)). clear G E HI.
    destruct Hbc as [B1 B2]. cbn [bvp_out]. unfold green_cp. destruct Rlt_dec; [lra|].
    assert (K1 : Kf xb L (- (S / D * L)) xb = 1). { unfold Kf. replace ((xb - xb) / L) with 0 by (field; lra). rewrite cosh_0', sinh_0'. ring. }
    assert (K2 : Kf' xb L (- (S / D * L)) xb = - (S / D)). { unfold Kf'. replace ((xb - xb) / L) with 0 by (field; lra). rewrite cosh_0', sinh_0'. field. lra. }
    rewrite K1, K2, B1 in U. replace (y' xb) with (- (S / D * (y xb - y0))) in U by lra.
    assert (K3 : Kf xb L (- (S / D * L)) xa = cosh ((xb - xa) / L) + S / D * L * sinh ((xb - xa) / L)).
    { unfold Kf. replace ((xa - xb) / L) with (- ((xb - xa) / L)) by (unfold Rdiv; ring). rewrite cosh_opp, sinh_opp. ring. }
    rewrite K3 in U. rewrite U. generalize (Kf' xb L (- (S / D * L)) xa). set (r := S / D) in *. clearbody r. set (k := r * L) in *. clearbody k. intros. field. lra.
Qed.

(** A boundary value problem with a known solution: uniform generation 2 with L = D = 1,
    no surface recombination at the back, y0 = 0, on [0,1]. *)
Example C79_case : exists y y' : R -> R,
  (forall x, 0 <= x <= 1 -> is_derive y x (y' x)) /\
  (forall x, 0 <= x <= 1 -> is_derive y' x (bvp_rhs (fun z => 2 * 1) 1 1 0 y x)) /\
  bvp_bc 0 1 1 0 0 y y' Bottom /\ 0 < bvp_out 0 1 y' Bottom /\
  (forall I, is_RInt (green_integrand 0 1 (fun _ => 2) 1 1 0 1 Bottom) 0 1 I ->
     I / green_cp 0 1 1 1 0 Bottom = bvp_out 0 1 y' Bottom).
Proof.
  assert (C1 := cosh_pos 1).
  exists (fun x => 2 - 2 * cosh (1 - x) / cosh 1), (fun x => 2 * sinh (1 - x) / cosh 1).
  assert (A : forall x, 0 <= x <= 1 -> is_derive (fun x => 2 - 2 * cosh (1 - x) / cosh 1) x (2 * sinh (1 - x) / cosh 1)).
  { intros x _. unfold cosh at 1, sinh. auto_derive; [lra|]. unfold Rminus. field. lra. }
  assert (B : forall x, 0 <= x <= 1 -> is_derive (fun x => 2 * sinh (1 - x) / cosh 1) x (bvp_rhs (fun z => 2 * 1) 1 1 0 (fun x => 2 - 2 * cosh (1 - x) / cosh 1) x)).
  { intros x _. unfold sinh, bvp_rhs. unfold cosh at 2. auto_derive; [lra|]. unfold Rminus. field. lra. }
  assert (D : bvp_bc 0 1 1 0 0 (fun x => 2 - 2 * cosh (1 - x) / cosh 1) (fun x => 2 * sinh (1 - x) / cosh 1) Bottom).
  { cbn. replace (1 - 0) with 1 by ring. replace (1 - 1) with 0 by ring. rewrite sinh_0'. split; field; lra. }
  split; [exact A|]. split; [exact B|]. split; [exact D|]. split.
  - cbn. replace (1 - 0) with 1 by ring. apply Rdiv_lt_0_compat; [|easy]. assert (0 < sinh 1) by (apply sinh_pos; lra). lra.
  - intros I HI. eapply (C79_green_solves_bvp_partial 0 1 (fun _ => 2) 1 1 0 1 0 _ _ I Bottom); try lra; try eassumption.
    intros; apply continuous_const.
Qed.

(** The probability with which a carrier generated at a point is collected. *)
Lemma cosh_mono a b : 0 <= a <= b -> cosh a <= cosh b.
Proof.
  intros H. assert (E : cosh b - cosh a = 2 * sinh ((a + b) / 2) * sinh ((b - a) / 2)).
  { unfold cosh, sinh.
    assert (E1 : exp b = exp ((a + b) / 2) * exp ((b - a) / 2)) by (rewrite <- exp_plus; f_equal; lra).
    assert (E2 : exp a = exp ((a + b) / 2) * exp (- ((b - a) / 2))) by (rewrite <- exp_plus; f_equal; lra).
    assert (E3 : exp (- b) = exp (- ((a + b) / 2)) * exp (- ((b - a) / 2))) by (rewrite <- exp_plus; f_equal; lra).
    assert (E4 : exp (- a) = exp (- ((a + b) / 2)) * exp ((b - a) / 2)) by (rewrite <- exp_plus; f_equal; lra).
    rewrite E1, E2, E3, E4. field. }
  assert (0 <= sinh ((a + b) / 2)) by (apply sinh_nonneg; lra). assert (0 <= sinh ((b - a) / 2)) by (apply sinh_nonneg; lra).
  assert (0 <= 2 * sinh ((a + b) / 2) * sinh ((b - a) / 2)) by (apply Rmult_le_pos; lra). lra.
Qed.
Lemma sinh_mono a b : a <= b -> sinh a <= sinh b.
Proof.
  intros [H| <-]; [|lra]. unfold sinh. assert (exp a < exp b) by now apply exp_increasing.
  assert (exp (- b) < exp (- a)) by (apply exp_increasing; lra). lra.
Qed.

Lemma kernel_bounds xa xb D L S x : xa <= x <= xb -> 0 < D -> 0 < L -> 0 <= S ->
  0 <= cosh ((xb - x) / L) + S / D * L * sinh ((xb - x) / L) <= cosh ((xb - xa) / L) + S / D * L * sinh ((xb - xa) / L).
Proof.
  intros Hx HD HL HS. assert (A : 0 <= (xb - x) / L) by (apply div_nonneg; lra).
  assert (B : (xb - x) / L <= (xb - xa) / L) by (unfold Rdiv; apply Rmult_le_compat_r; [left; now apply Rinv_0_lt_compat|lra]).
  assert (C : 0 <= S / D * L) by (apply Rmult_le_pos; [apply div_nonneg; lra|lra]).
  assert (M := cosh_mono _ _ (conj A B)). assert (N := sinh_mono _ _ B). assert (P := sinh_nonneg _ A).
  assert (Q := cosh_pos ((xb - x) / L)). assert (R1 := Rmult_le_pos _ _ C P).
  assert (R2 := Rmult_le_compat_l _ _ _ C N). lra.
Qed.

Lemma integrand_bound xa xb g D L S ph sd x : xa <= x <= xb -> 0 < D -> 0 < L -> 0 <= S -> 0 <= ph ->
  (forall z, xa <= z <= xb -> 0 <= g z) ->
  let src := match sd with Top => xa + xb - x | Bottom => x end in
  0 <= green_integrand xa xb g D L S ph sd x / green_cp xa xb D L S sd * (match sd with Top => - 1 | Bottom => 1 end) <= g src * ph / D.
Proof.
  intros Hx HD HL HS Hph Hg src.
  assert (HG : 0 <= g src * ph / D).
  { apply div_nonneg; [|easy]. apply Rmult_le_pos; [|easy]. apply Hg. unfold src. destruct sd; lra. }
  assert (Kb := kernel_bounds xa xb D L S x Hx HD HL HS). set (kx := cosh ((xb - x) / L) + _) in *.
  set (ka := cosh ((xb - xa) / L) + _) in *.
  assert (Hka : 0 < ka). { unfold ka. assert (A := cosh_pos ((xb - xa) / L)). assert (B : 0 <= sinh ((xb - xa) / L)) by (apply sinh_nonneg, div_nonneg; lra).
    assert (C : 0 <= S / D * L) by (apply Rmult_le_pos; [apply div_nonneg; lra|lra]). assert (E := Rmult_le_pos _ _ C B). lra. }
  assert (Hr : 0 <= kx / ka <= 1). { split; [apply div_nonneg; lra|]. apply Rmult_le_reg_r with ka; [easy|]. unfold Rdiv. rewrite Rmult_assoc, Rinv_l by lra. lra. }
  assert (He : 0 <= exp ((xa - x) / L) <= 1).
  { split; [left; apply exp_pos|]. rewrite <- exp_0. assert (E : (xa - x) / L <= 0) by (assert (0 <= (x - xa) / L) by (apply div_nonneg; lra); unfold Rdiv in *; lra).
    destruct E as [E| ->]; [left; now apply exp_increasing|lra]. }
  set (G := g src * ph / D) in *.
  assert (Mul : forall t, 0 <= t <= 1 -> 0 <= t * G <= G) by (intros t [T1 T2]; split; [now apply Rmult_le_pos|rewrite <- (Rmult_1_l G) at 2; now apply Rmult_le_compat_r]).
  unfold green_integrand, green_cp. destruct Rlt_dec; destruct sd; unfold conv_exp_top, conv_exp_bottom, conv_green_top, conv_green_bottom; unfold src in *.
  - replace (- exp ((xa - x) / L) * (g (xa + xb - x) * (ph / D)) / 1 * -1) with (exp ((xa - x) / L) * G) by (unfold G; field; lra). now apply Mul.
  - replace (exp ((xa - x) / L) * (g x * (ph / D)) / 1 * 1) with (exp ((xa - x) / L) * G) by (unfold G; field; lra). now apply Mul.
  - replace (- cosh ((xb - xa) / L) - S / D * L * sinh ((xb - xa) / L)) with (- ka) by (unfold ka; ring).
    replace ((cosh ((xb - x) / L) + S / D * L * sinh ((xb - x) / L)) * (g (xa + xb - x) * (ph / D)) / - ka * -1) with (kx / ka * G) by (fold kx; unfold G; field; lra). now apply Mul.
  - fold ka. replace ((cosh ((xb - x) / L) - - (S / D * L) * sinh ((xb - x) / L)) * (g x * (ph / D)) / ka * 1) with (kx / ka * G) by (unfold kx, G; field; lra). now apply Mul.
Qed.

(** C79: no more carriers are collected from a neutral region than are generated in it,
    for either side and both the exact and the asymptotic kernel. *)
Theorem C79_collection_bounded : forall xa xb g D L S ph sd I G,
  xa <= xb -> 0 < D -> 0 < L -> 0 <= S -> 0 <= ph ->
  (forall z, xa <= z <= xb -> 0 <= g z) ->
  is_RInt (green_integrand xa xb g D L S ph sd) xa xb I ->
  is_RInt (fun z => g z * ph) xa xb G ->
  0 <= D * Rabs (I / green_cp xa xb D L S sd) <= G.
Proof.
  intros xa xb g D L S ph sd I G Hab HD HL HS Hph Hg HI HG.
  set (cp := green_cp xa xb D L S sd) in *. set (sg := match sd with Top => - 1 | Bottom => 1 end).
  assert (HI' : is_RInt (fun x => green_integrand xa xb g D L S ph sd x / cp * sg) xa xb (I / cp * sg)).
  { assert (K := is_RInt_scal _ _ _ (sg / cp) _ HI).
    replace (I / cp * sg) with (scal (sg / cp) I) by (unfold scal; cbn; unfold mult; cbn; unfold Rdiv; ring).
    eapply is_RInt_ext; [|exact K]. intros x _. unfold scal; cbn; unfold mult; cbn; unfold Rdiv; ring. }
  assert (HG' : is_RInt (fun x => g (match sd with Top => xa + xb - x | Bottom => x end) * ph / D) xa xb (G / D)).
  { assert (K := is_RInt_scal _ _ _ (/ D) _ HG). replace (G / D) with (scal (/ D) G) by (unfold scal; cbn; unfold mult; cbn; unfold Rdiv; ring).
    destruct sd.
    - apply reflect_int in K. eapply is_RInt_ext; [|exact K]. intros x _. unfold scal; cbn; unfold mult; cbn; unfold Rdiv; ring.
    - eapply is_RInt_ext; [|exact K]. intros x _. unfold scal; cbn; unfold mult; cbn; unfold Rdiv; ring. }
  assert (B : forall x, xa < x < xb -> 0 <= green_integrand xa xb g D L S ph sd x / cp * sg <= g (match sd with Top => xa + xb - x | Bottom => x end) * ph / D).
  { intros x Hx. apply integrand_bound; lra || assumption. }
  assert (U : I / cp * sg <= G / D) by (apply (is_RInt_le _ _ xa xb _ _ Hab HI' HG'); intros x Hx; now apply B).
  assert (Lo : 0 <= I / cp * sg).
  { assert (Z : is_RInt (fun _ : R => 0) xa xb 0). { assert (W := is_RInt_const xa xb 0). unfold scal in W; cbn in W; unfold mult in W; cbn in W. now rewrite Rmult_0_r in W. }
    apply (is_RInt_le _ _ xa xb _ _ Hab Z HI'). intros x Hx. now apply B. }
  assert (E : Rabs (I / cp) = I / cp * sg).
  { rewrite <- (Rabs_right (I / cp * sg)) by lra. rewrite Rabs_mult. replace (Rabs sg) with 1; [ring|].
    unfold sg. destruct sd; [rewrite Rabs_left; lra|rewrite Rabs_right; lra]. }
  rewrite E. split; [apply Rmult_le_pos; lra|]. replace G with (D * (G / D)) by (field; lra). apply Rmult_le_compat_l; lra.
Qed.

Lemma green_const_int a b g D L S ph sd : a <= b -> 0 < D -> 0 < L ->
  ex_RInt (green_integrand a b (fun _ => g) D L S ph sd) a b.
Proof.
  intros. apply (ex_RInt_continuous (V := R_CompleteNormedModule)). intros x _. apply (ex_derive_continuous (green_integrand a b (fun _ => g) D L S ph sd)).
  unfold green_integrand. destruct Rlt_dec; destruct sd; unfold conv_exp_top, conv_exp_bottom, conv_green_top, conv_green_bottom, cosh, sinh; auto_derive; easy.
Qed.
Example C79_bounded_case : exists I, is_RInt (green_integrand 0 1 (fun _ => 2) 1 1 3 1 Top) 0 1 I /\
  0 <= 1 * Rabs (I / green_cp 0 1 1 1 3 Top) <= 2.
Proof.
  destruct (green_const_int 0 1 2 1 1 3 1 Top) as [I HI]; try lra. exists I. split; [easy|].
  eapply (C79_collection_bounded 0 1 (fun _ => 2) 1 1 3 1 Top I 2); try lra; [intros; lra|exact HI|].
  assert (W := is_RInt_const 0 1 (2 * 1)). unfold scal in W; cbn in W; unfold mult in W; cbn in W.
  replace ((1 - 0) * (2 * 1)) with 2 in W by ring. exact W.
Qed.

(** * C80 *)
Definition sah_integrand (b z : R) : R := 1 / (z ^ 2 + 2 * b * z + 1).
Lemma sah_den b z : 0 < b -> 0 < z -> 0 < z ^ 2 + 2 * b * z + 1.
Proof. intros. assert (0 < b * z) by now apply Rmult_lt_0_compat. assert (0 <= z ^ 2) by apply pow2_ge_0. lra. Qed.
Lemma sah_cont b z : 0 < b -> 0 < z -> continuous (sah_integrand b) z.
Proof.
  intros. apply (ex_derive_continuous (sah_integrand b)). unfold sah_integrand. auto_derive.
  assert (A := sah_den b z H H0). cbn in A. lra.
Qed.

Lemma sah_low b z1 z2 : 0 < b < 1 -> 0 < z1 -> 0 < z2 -> is_RInt (sah_integrand b) z1 z2 (factor_low b z1 z2).
Proof.
  intros Hb H1 H2. assert (P : 0 < 1 - b ^ 2) by nra. assert (Hs := sqrt_lt_R0 _ P). assert (Q := sqrt_sqrt _ (Rlt_le _ _ P)).
  unfold factor_low. set (s := sqrt (1 - b ^ 2)) in *.
  replace ((atan ((b + z2) / s) - atan ((b + z1) / s)) / s) with (minus (atan ((b + z2) / s) / s) (atan ((b + z1) / s) / s)) by (unfold minus, plus, opp; cbn; field; lra).
  apply (is_RInt_derive (fun z => atan ((b + z) / s) / s)).
  - intros z Hz. assert (0 < z) by (unfold Rmin in Hz; destruct Rle_dec; lra).
    unfold sah_integrand. auto_derive; [lra|]. assert (D := sah_den b z ltac:(lra) H). cbn in D.
    assert (E : z ^ 2 + 2 * b * z + 1 = s * s + (b + z) ^ 2) by (rewrite Q; ring). rewrite E.
    clear E D Q. clearbody s. assert (0 < s * s) by now apply Rmult_lt_0_compat.
    assert (0 <= (b + z) ^ 2) by apply pow2_ge_0. field. repeat split; try lra; nra.
  - intros z Hz. apply sah_cont; [lra|]. unfold Rmin in Hz; destruct Rle_dec; lra.
Qed.

Lemma sah_mid b z1 z2 : 1 < b -> 0 < z1 -> 0 < z2 ->
  exists f, factor_mid b z1 z2 = Some f /\ is_RInt (sah_integrand b) z1 z2 f.
Proof.
  intros Hb H1 H2. assert (P : 0 < b ^ 2 - 1) by nra. assert (Hs := sqrt_lt_R0 _ P). assert (Q := sqrt_sqrt _ (Rlt_le _ _ P)).
  unfold factor_mid. set (s := sqrt (b ^ 2 - 1)) in *. destruct (Req_EM_T s 0); [lra|].
  assert (Hsb : s < b) by nra.
  eexists. split; [reflexivity|].
  rewrite !Rabs_right by lra.
  replace ((ln ((z2 - s + b) / (z2 + s + b)) - ln ((z1 - s + b) / (z1 + s + b))) / (2 * s)) with
    (minus (ln ((z2 - s + b) / (z2 + s + b)) / (2 * s)) (ln ((z1 - s + b) / (z1 + s + b)) / (2 * s))) by (unfold minus, plus, opp; cbn; field; lra).
  apply (is_RInt_derive (fun z => ln ((z - s + b) / (z + s + b)) / (2 * s))).
  - intros z Hz. assert (0 < z) by (unfold Rmin in Hz; destruct Rle_dec; lra).
    assert (0 < z - s + b) by lra. assert (0 < z + s + b) by lra.
    unfold sah_integrand. auto_derive.
    + repeat split; try lra. now apply Rdiv_lt_0_compat.
    + assert (D := sah_den b z ltac:(lra) H).
      assert (E : z ^ 2 + 2 * b * z + 1 = (z - s + b) * (z + s + b)) by nra. rewrite E. field. lra.
  - intros z Hz. apply sah_cont; [lra|]. unfold Rmin in Hz; destruct Rle_dec; lra.
Qed.

Lemma z1_pos V Vbi tp tn kbT : 0 < tp -> 0 < tn -> 0 < sah_z1 V Vbi tp tn kbT.
Proof. intros. unfold sah_z1. apply Rmult_lt_0_compat; [apply sqrt_lt_R0; now apply Rdiv_lt_0_compat|apply exp_pos]. Qed.
Lemma z2_pos V Vbi tp tn kbT : 0 < tp -> 0 < tn -> 0 < sah_z2 V Vbi tp tn kbT.
Proof. intros. unfold sah_z2. apply Rmult_lt_0_compat; [apply sqrt_lt_R0; now apply Rdiv_lt_0_compat|apply exp_pos]. Qed.
Lemma b_pos V tp tn kbT dEt : 0 < sah_b V tp tn kbT dEt.
Proof. unfold sah_b. apply Rmult_lt_0_compat; [apply exp_pos|apply cosh_pos]. Qed.

(** C80: away from b = 1 and below b = 1e7 the factor of the recombination current is
    the integral of Sah's equation 27. *)
Theorem C80_sah_integral_partial : forall V Vbi tp tn kbT dEt, 0 < tp -> 0 < tn ->
  sah_b V tp tn kbT dEt <> 1 -> sah_b V tp tn kbT dEt < 10 ^ 7 ->
  exists f, factor V Vbi tp tn kbT dEt = Some f /\
    is_RInt (fun z => 1 / (z ^ 2 + 2 * sah_b V tp tn kbT dEt * z + 1)) (sah_z1 V Vbi tp tn kbT) (sah_z2 V Vbi tp tn kbT) f.
Proof.
  intros V Vbi tp tn kbT dEt Hp Hn N1 N7. unfold factor, factor_at.
  assert (P1 := z1_pos V Vbi tp tn kbT Hp Hn). assert (P2 := z2_pos V Vbi tp tn kbT Hp Hn). assert (Pb := b_pos V tp tn kbT dEt).
  set (b := sah_b V tp tn kbT dEt) in *. destruct (Rlt_dec b 1) as [L|L].
  - eexists. split; [reflexivity|]. apply sah_low; lra.
  - destruct (Rlt_dec b (10 ^ 7)); [|lra]. apply sah_mid; lra.
Qed.

(** At forward bias b < 1 when the lifetimes are equal. *)
Example C80_case : exists f, factor 1 2 1 1 q 0 = Some f /\
    is_RInt (fun z => 1 / (z ^ 2 + 2 * sah_b 1 1 1 q 0 * z + 1)) (sah_z1 1 2 1 1 q) (sah_z2 1 2 1 1 q) f.
Proof.
  assert (Hq := q_pos).
  assert (E : sah_b 1 1 1 q 0 = exp (- (1 / 2))).
  { unfold sah_b. replace (q * 0 / q + ln (1 / 1) / 2) with 0 by (replace (1 / 1) with 1 by field; rewrite ln_1; field; lra).
    rewrite cosh_0', Rmult_1_r. f_equal. field. lra. }
  assert (Z : exp (- (1 / 2)) < exp 0) by (apply exp_increasing; lra). rewrite exp_0 in Z. assert (Z' := pow_lt 10 6 ltac:(lra)).
  apply C80_sah_integral_partial; rewrite ?E; lra.
Qed.

(** In strong reverse bias (b >= 1e7) the "1" of the denominator is dropped, although the
    lower limit is small: the result exceeds the integral by any factor. *)
Theorem C80_reverse_bias_refuted : forall M, exists V Vbi kbT f I, 0 < kbT /\ V < 0 < Vbi /\
  factor V Vbi 1 1 kbT 0 = Some f /\ 0 < I /\
  is_RInt (fun z => 1 / (z ^ 2 + 2 * sah_b V 1 1 kbT 0 * z + 1)) (sah_z1 V Vbi 1 1 kbT) (sah_z2 V Vbi 1 1 kbT) I /\
  M * I < f.
Proof.
  intros M. assert (Hq := q_pos).
  set (b := 10 ^ 7). assert (Hb : 1 < b) by (unfold b; lra).
  assert (P : 0 < b ^ 2 - 1) by (unfold b; lra). assert (Hs := sqrt_lt_R0 _ P). assert (Q := sqrt_sqrt _ (Rlt_le _ _ P)).
  set (s := sqrt (b ^ 2 - 1)) in *. assert (Hsb : s < b) by nra.
  set (Imax := ln ((b + s) / (b - s)) / (2 * s)).
  assert (HI : 0 < Imax). { unfold Imax. apply Rdiv_lt_0_compat; [|lra]. rewrite <- ln_1. apply ln_increasing; [lra|].
    apply Rmult_lt_reg_r with (b - s); [lra|]. unfold Rdiv. rewrite Rmult_assoc, Rinv_l by lra. lra. }
  set (A := Rabs M * Imax * (2 * b) + ln (2 * b) + 1).
  assert (L2 : 0 < ln (2 * b)) by (rewrite <- ln_1; apply ln_increasing; lra).
  assert (HA : 0 < A). { unfold A. assert (0 <= Rabs M) by apply Rabs_pos. assert (0 <= Rabs M * Imax) by (apply Rmult_le_pos; lra). assert (0 <= Rabs M * Imax * (2 * b)) by (apply Rmult_le_pos; lra). lra. }
  assert (LB : 0 < ln b) by (rewrite <- ln_1; apply ln_increasing; lra).
  exists (- (2 * ln b)), (2 * A - 2 * ln b), q.
  assert (Eb : sah_b (- (2 * ln b)) 1 1 q 0 = b).
  { unfold sah_b. replace (q * 0 / q + ln (1 / 1) / 2) with 0 by (replace (1 / 1) with 1 by field; rewrite ln_1; field; lra).
    rewrite cosh_0', Rmult_1_r. replace (- q * - (2 * ln b) / q / 2) with (ln b) by (field; lra). apply exp_ln. lra. }
  assert (E1 : sah_z1 (- (2 * ln b)) (2 * A - 2 * ln b) 1 1 q = exp (- A)).
  { unfold sah_z1. replace (1 / 1) with 1 by field. rewrite sqrt_1, Rmult_1_l. f_equal. field. lra. }
  assert (E2 : sah_z2 (- (2 * ln b)) (2 * A - 2 * ln b) 1 1 q = exp A).
  { unfold sah_z2. replace (1 / 1) with 1 by field. rewrite sqrt_1, Rmult_1_l. f_equal. field. lra. }
  destruct (sah_mid b (exp (- A)) (exp A) Hb (exp_pos _) (exp_pos _)) as (I & EI & HRI).
  exists (factor_high b (exp (- A)) (exp A)), I.
  assert (HAb : ln b < A). { unfold A. assert (ln b < ln (2 * b)) by (apply ln_increasing; lra). assert (0 <= Rabs M) by apply Rabs_pos. assert (0 <= Rabs M * Imax) by (apply Rmult_le_pos; lra). assert (0 <= Rabs M * Imax * (2 * b)) by (apply Rmult_le_pos; lra). lra. }
  split; [easy|]. split; [lra|].
  split. { unfold factor, factor_at. rewrite Eb, E1, E2. destruct (Rlt_dec b 1); [lra|]. destruct (Rlt_dec b (10 ^ 7)) as [X|X]; [unfold b in X; lra|easy]. }
  assert (EA : exp (- A) < exp A) by (apply exp_increasing; lra).
  assert (Pz1 := exp_pos (- A)). assert (Pz2 := exp_pos A).
  set (z1 := exp (- A)) in *. set (z2 := exp A) in *.
  assert (HIf : I = (ln ((z2 - s + b) / (z2 + s + b)) - ln ((z1 - s + b) / (z1 + s + b))) / (2 * s)).
  { unfold factor_mid in EI. fold s in EI. destruct (Req_EM_T s 0); [lra|]. injection EI as <-. rewrite !Rabs_right by lra. easy. }
  assert (Lfrac : forall a, 0 < a -> 0 < (a - s + b) / (a + s + b) < 1).
  { intros a Ha. split; [apply Rdiv_lt_0_compat; lra|]. apply Rmult_lt_reg_r with (a + s + b); [lra|]. unfold Rdiv. rewrite Rmult_assoc, Rinv_l by lra. lra. }
  split.
  { rewrite HIf. apply Rdiv_lt_0_compat; [|lra].
    assert (ln ((z1 - s + b) / (z1 + s + b)) < ln ((z2 - s + b) / (z2 + s + b))); [|lra].
    apply ln_increasing; [apply Lfrac; easy|]. apply Rmult_lt_reg_r with ((z1 + s + b) * (z2 + s + b)); [nra|].
    replace ((z1 - s + b) / (z1 + s + b) * ((z1 + s + b) * (z2 + s + b))) with ((z1 - s + b) * (z2 + s + b)) by (field; lra).
    replace ((z2 - s + b) / (z2 + s + b) * ((z1 + s + b) * (z2 + s + b))) with ((z2 - s + b) * (z1 + s + b)) by (field; lra). nra. }
  split. { rewrite Eb, E1, E2. exact HRI. }
  (* the integral is at most Imax *)
  assert (IU : I <= Imax).
  { rewrite HIf. unfold Imax. unfold Rdiv at 1 4. apply Rmult_le_compat_r; [left; apply Rinv_0_lt_compat; lra|].
    assert (ln ((z2 - s + b) / (z2 + s + b)) < 0). { rewrite <- ln_1. apply ln_increasing; now apply Lfrac. }
    assert (- ln ((z1 - s + b) / (z1 + s + b)) <= ln ((b + s) / (b - s))); [|lra].
    rewrite <- ln_Rinv by now apply Lfrac. left. apply ln_increasing; [apply Rinv_0_lt_compat; now apply Lfrac|].
    replace (/ ((z1 - s + b) / (z1 + s + b))) with ((z1 + s + b) / (z1 - s + b)) by (field; lra).
    apply Rmult_lt_reg_r with ((z1 - s + b) * (b - s)); [nra|].
    replace ((z1 + s + b) / (z1 - s + b) * ((z1 - s + b) * (b - s))) with ((z1 + s + b) * (b - s)) by (field; lra).
    replace ((b + s) / (b - s) * ((z1 - s + b) * (b - s))) with ((b + s) * (z1 - s + b)) by (field; lra). nra. }
  (* the code's value is at least A / (2 b) - something small *)
  assert (FL : A / (2 * b) <= factor_high b z1 z2).
  { unfold factor_high. unfold Rdiv. apply Rmult_le_compat_r; [left; apply Rinv_0_lt_compat; lra|].
    assert (Lz1 : ln z1 = - A) by apply ln_exp. assert (Lz2 : ln z2 = A) by apply ln_exp. rewrite Lz1, Lz2.
    assert (ln (z2 + 2 * b) <= A + ln 2).
    { rewrite <- Lz2, <- ln_mult by lra. assert (2 * b < z2).
      { rewrite <- (exp_ln (2 * b)) by lra. unfold z2. apply exp_increasing. unfold A. assert (0 <= Rabs M) by apply Rabs_pos. assert (0 <= Rabs M * Imax) by (apply Rmult_le_pos; lra). assert (0 <= Rabs M * Imax * (2 * b)) by (apply Rmult_le_pos; lra). lra. }
      left. apply ln_increasing; lra. }
    assert (ln 2 < ln (z1 + 2 * b)) by (apply ln_increasing; lra). lra. }
  apply Rlt_le_trans with (A / (2 * b)); [|exact FL].
  apply Rle_lt_trans with (Rabs M * Imax).
  - apply Rle_trans with (Rabs M * I); [|apply Rmult_le_compat_l; [apply Rabs_pos|easy]].
    apply Rmult_le_compat_r; [|apply Rle_abs]. rewrite HIf. left.
    apply Rdiv_lt_0_compat; [|lra].
    assert (ln ((z1 - s + b) / (z1 + s + b)) < ln ((z2 - s + b) / (z2 + s + b))); [|lra].
    apply ln_increasing; [apply Lfrac; easy|]. apply Rmult_lt_reg_r with ((z1 + s + b) * (z2 + s + b)); [nra|].
    replace ((z1 - s + b) / (z1 + s + b) * ((z1 + s + b) * (z2 + s + b))) with ((z1 - s + b) * (z2 + s + b)) by (field; lra).
    replace ((z2 - s + b) / (z2 + s + b) * ((z1 + s + b) * (z2 + s + b))) with ((z2 - s + b) * (z1 + s + b)) by (field; lra). nra.
  - apply Rmult_lt_reg_r with (2 * b); [lra|]. unfold Rdiv at 1. rewrite (Rmult_assoc A), Rinv_l by lra. unfold A. lra.
Qed.

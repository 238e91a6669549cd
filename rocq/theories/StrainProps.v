(** Properties of strain.py, the band edges of kp_QW.py and strain_balancing.py. *)
From Coq Require Import Reals Lra Lia String List Bool ZArith Psatz.
From Coquelicot Require Import Coquelicot.
From Verif Require Import Common PhysConst StrainModel.
From Coq Require Import List.
Import ListNotations.
Open Scope string_scope.
Open Scope R_scope.
Open Scope list_scope.

(** * Bisection *)

Lemma xtol_pos : 0 < xtol.
Proof. unfold xtol. apply Rdiv_lt_0_compat; [lra|apply pow10_pos]. Qed.
Lemma rtol_pos : 0 < rtol.
Proof. unfold rtol. apply Rdiv_lt_0_compat; [lra|apply pow_lt; lra]. Qed.

(** [opposite u v]: one is negative, the other positive. *)
Definition opposite (u v : R) : Prop := u * v < 0.

Lemma sameb_false_opposite u v : u <> 0 -> v <> 0 -> sameb u v = false -> opposite u v.
Proof.
  intros Hu Hv. unfold sameb, opposite.
  destruct (Rlt_dec u 0), (Rlt_dec v 0); intro E; try discriminate; nra.
Qed.
Lemma sameb_true u v : u <> 0 -> v <> 0 -> sameb u v = true -> 0 < u * v.
Proof.
  intros Hu Hv. unfold sameb.
  destruct (Rlt_dec u 0), (Rlt_dec v 0); intro E; try discriminate; nra.
Qed.
Lemma opposite_sameb u v : opposite u v -> sameb u v = false.
Proof.
  unfold sameb, opposite. destruct (Rlt_dec u 0), (Rlt_dec v 0); intro E; auto; nra.
Qed.

Definition near (x y : R) : Prop := Rabs (x - y) < xtol + rtol * Rabs x.

Lemma bisect_loop_ok f lo hi n : forall fa xa dm x va vb,
  0 < dm -> lo <= xa -> xa + dm <= hi -> fa <> 0 ->
  f xa = Ok va -> va <> 0 -> 0 < va * fa ->
  f (xa + dm) = Ok vb -> vb <> 0 -> vb * fa < 0 ->
  bisect_loop n f fa xa dm = Ok x ->
  (lo < x < hi \/ lo <= x <= hi) /\
  (f x = Ok 0 \/
   exists y u v, lo <= y <= hi /\ near x y /\ f x = Ok u /\ f y = Ok v /\ opposite u v).
Proof.
  induction n as [|n IH]; intros fa xa dm x va vb Hdm Hlo Hhi Hfa Ha Hva Hs Hb Hvb Ho; simpl; [discriminate|].
  unfold bindR. destruct (f (xa + dm / 2)) as [fm|e] eqn:Em; [|discriminate].
  destruct (Req_EM_T fm 0) as [->|Hm].
  - intro E; inversion E; subst. split; [right; lra|]. left; auto.
  - destruct (Rlt_dec (Rabs (dm / 2)) (xtol + rtol * Rabs (xa + dm / 2))) as [Hn|Hn].
    + intro E; inversion E; subst. split; [right; lra|]. right.
      destruct (sameb fm fa) eqn:Es.
      * apply sameb_true in Es; auto.
        exists (xa + dm), fm, vb. split; [lra|]. split.
        { unfold near. replace (xa + dm / 2 - (xa + dm)) with (- (dm / 2)) by lra.
          rewrite Rabs_Ropp. exact Hn. }
        repeat split; auto. unfold opposite.
        assert (fm * fa * (vb * fa) < 0) by nra.
        assert (0 < fa * fa) by nra.
        assert (fm * vb * (fa * fa) < 0) by nra. nra.
      * apply sameb_false_opposite in Es; auto. unfold opposite in *.
        exists xa, fm, va. split; [lra|]. split.
        { unfold near. replace (xa + dm / 2 - xa) with (dm / 2) by lra. exact Hn. }
        repeat split; auto.
        assert (fm * fa * (va * fa) < 0) by nra.
        assert (0 < fa * fa) by nra.
        assert (fm * va * (fa * fa) < 0) by nra. nra.
    + destruct (sameb fm fa) eqn:Es.
      * apply sameb_true in Es; auto.
        apply (IH fa (xa + dm / 2) (dm / 2) x fm vb); auto; try lra.
        replace (xa + dm / 2 + dm / 2) with (xa + dm) by lra. exact Hb.
      * apply sameb_false_opposite in Es; auto.
        apply (IH fa xa (dm / 2) x va fm); auto; lra.
Qed.

(** What a bisection that returns tells: the returned point is a root, or the
    function has opposite signs at that point and at another one closer than the
    tolerance. *)
Lemma bisect_ok f a b x :
  a < b -> bisect f a b = Ok x ->
  a <= x <= b /\
  (f x = Ok 0 \/
   exists y u v, a <= y <= b /\ near x y /\ f x = Ok u /\ f y = Ok v /\ opposite u v).
Proof.
  intros Hab. unfold bisect, bindR.
  destruct (f a) as [fa|e] eqn:Ea; [|discriminate].
  destruct (f b) as [fb|e] eqn:Eb; [|discriminate].
  destruct (Req_EM_T fa 0) as [->|Ha]; [intro E; inversion E; subst; split; [lra|auto]|].
  destruct (Req_EM_T fb 0) as [->|Hb]; [intro E; inversion E; subst; split; [lra|auto]|].
  destruct (sameb fa fb) eqn:Es; [discriminate|].
  apply sameb_false_opposite in Es; auto. unfold opposite in Es.
  intro E. destruct (bisect_loop_ok f a b 100 fa a (b - a) x fa fb) as [H1 H2];
    try assumption; try lra; try nra.
  { replace (a + (b - a)) with b by lra. exact Eb. }
  split; [lra|exact H2].
Qed.

Lemma bisect_loop_total f lo hi n : forall fa xa dm,
  0 < dm -> dm < xtol * 2 ^ n -> (0 < n)%nat -> lo <= xa -> xa + dm <= hi ->
  (forall x, lo <= x <= hi -> exists v, f x = Ok v) ->
  exists x, bisect_loop n f fa xa dm = Ok x.
Proof.
  induction n as [|n IH]; intros fa xa dm H0 Hn Hp Hlo Hhi Ht; [lia|].
  cbn [bisect_loop]. unfold bindR.
  destruct (Ht (xa + dm / 2)) as [fm ->]; [lra|].
  destruct (Req_EM_T fm 0); [eauto|].
  destruct (Rlt_dec (Rabs (dm / 2)) (xtol + rtol * Rabs (xa + dm / 2))) as [Hl|Hl]; [eauto|].
  simpl in Hn. destruct n as [|n].
  - exfalso. apply Hl. rewrite Rabs_right by lra. simpl in Hn.
    pose proof rtol_pos. pose proof (Rabs_pos (xa + dm / 2)). nra.
  - apply IH; try lra; try lia; try assumption.
    destruct (sameb fm fa); lra. destruct (sameb fm fa); lra.
Qed.

(** With a sign change on a bracket that 100 halvings reduce below the tolerance a
    bisection never fails. *)
Lemma bisect_total f a b u v :
  a < b -> b - a < xtol * 2 ^ 100 ->
  (forall x, a <= x <= b -> exists v, f x = Ok v) ->
  f a = Ok u -> f b = Ok v -> opposite u v ->
  exists x, bisect f a b = Ok x.
Proof.
  intros Hab Hn Ht Ha Hb Ho. unfold bisect, bindR. rewrite Ha, Hb.
  assert (u <> 0 /\ v <> 0) as [Hu Hv] by (unfold opposite in Ho; split; intro; subst; lra).
  destruct (Req_EM_T u 0); [contradiction|]. destruct (Req_EM_T v 0); [contradiction|].
  rewrite (opposite_sameb u v Ho).
  apply (bisect_loop_total f a b); try assumption; try lra; lia.
Qed.

Lemma bracket_100 : 10 ^ 10 + 1 < xtol * 2 ^ 100.
Proof. unfold xtol. lra. Qed.

(** * C53 *)

(** The parameters of a zinc-blende layer: positive stiffness with C12 below C11 and
    a non-zero lattice constant. *)
Definition elastic (m : mat) : Prop := 0 < m_c11 m /\ 0 <= m_c12 m < m_c11 m /\ 0 < m_a m.

Lemma sgn_neg x : x < 0 -> sgn x = (-1)%Z.
Proof. intro. unfold sgn. destruct (Rlt_dec 0 x), (Rlt_dec x 0); auto; lra. Qed.
Lemma sgn_pos x : 0 < x -> sgn x = 1%Z.
Proof. intro. unfold sgn. destruct (Rlt_dec 0 x), (Rlt_dec x 0); auto; lra. Qed.

Lemma check_signs_ok l :
  (forall v s, In (v, s) l -> v = 0 \/ sgn v = s) <-> check_signs l = Ok tt.
Proof.
  induction l as [|[v s] l IH]; simpl; [split; auto; intros _ v s []|].
  destruct (Req_EM_T v 0) as [E|E].
  - rewrite <- IH. split; intros H; [intros; apply H; auto|].
    intros v' s' [Hi|Hi]; [inversion Hi; subst; auto|auto].
  - destruct (Z.eqb_spec (sgn v) s) as [Es|Es].
    + rewrite <- IH. split; intros H; [intros; apply H; auto|].
      intros v' s' [Hi|Hi]; [inversion Hi; subst; auto|auto].
    + split; [|discriminate]. intro H. destruct (H v s) as [H'|H']; auto; contradiction.
Qed.
Lemma check_signs_err l e : check_signs l = Err e -> e = ValueError.
Proof.
  induction l as [|[v s] l IH]; simpl; [discriminate|].
  destruct (Req_EM_T v 0); auto. destruct (Z.eqb (sgn v) s); auto. congruence.
Qed.

Lemma ratio_bounds m : elastic m -> 0 <= m_c12 m / m_c11 m < 1.
Proof.
  intros (H1 & H2 & _). split.
  - apply Rmult_le_pos; [lra|]. left. apply Rinv_0_lt_compat; lra.
  - apply (Rmult_lt_reg_r (m_c11 m)); [lra|]. unfold Rdiv.
    rewrite Rmult_assoc, Rinv_l by lra. lra.
Qed.

(** C53: for an elastic layer the sign checks pass exactly when the conduction
    deformation potential and the shear deformation potential are not positive, and
    the only failure is a ValueError. *)
Theorem C53_sign_checks : forall sub m SO, elastic m ->
  ((exists k, strain_calculation_parameters sub m SO = Ok k) <-> m_ac m <= 0 /\ m_b m <= 0) /\
  (forall e, strain_calculation_parameters sub m SO = Err e -> e = ValueError).
Proof.
  intros sub m SO He. pose proof (ratio_bounds m He) as Hr.
  set (r := m_c12 m / m_c11 m) in *.
  set (eps := (m_a sub - m_a m) / m_a m).
  unfold strain_calculation_parameters.
  match goal with |- context [strain_calculation_asserts ?z] => set (k := z) end.
  assert (Hz : k_ezz k = - (2 * r * eps)).
  { unfold k, k_ezz, r, eps. unfold Rdiv. ring. }
  assert (HT : k_Tre k = 2 * (1 - r) * eps).
  { unfold k, k_Tre, r, eps. unfold Rdiv. ring. }
  assert (HP : k_Pe k = - Rabs (m_av m) * (2 * (1 - r) * eps)).
  { rewrite <- HT. reflexivity. }
  assert (HQ : k_Qe k = - m_b m * ((1 + 2 * r) * eps)).
  { unfold k, k_Qe, r, eps. unfold Rdiv. field. destruct He as (? & ? & ?). split; lra. }
  assert (HE : k_dEc k = m_ac m * (2 * (1 - r) * eps)).
  { rewrite <- HT. reflexivity. }
  assert (Hx : k_epsilon k = eps) by reflexivity.
  assert (Hxx : k_exx k = eps) by reflexivity.
  assert (Hyy : k_eyy k = eps) by reflexivity.
  assert (Hc : k_ac k = m_ac m) by reflexivity.
  assert (Hb : k_b k = m_b m) by reflexivity.
  assert (Hv : k_av k = Rabs (m_av m)) by reflexivity.
  pose proof (Rabs_pos (m_av m)) as Hav.
  set (A := Rabs (m_av m)) in *.
  split.
  - transitivity (strain_calculation_asserts k = Ok tt).
    { destruct (strain_calculation_asserts k) as [[]|e]; split; eauto.
      - intros [k' Hk]; discriminate.
      - discriminate. }
    unfold strain_calculation_asserts. rewrite <- check_signs_ok.
    unfold sign_table. rewrite Hx, Hxx, Hyy, Hz, HP, HQ, HE, Hc, Hb, Hv.
    clearbody k A r eps. clear Hx Hxx Hyy Hz HP HQ HE Hc Hb Hv HT He.
    split.
    + intro H. split.
      * destruct (H (m_ac m) (-1)%Z) as [H'|H']; [simpl; tauto|lra|].
        unfold sgn in H'. destruct (Rlt_dec 0 (m_ac m)); [discriminate|lra].
      * destruct (H (m_b m) (-1)%Z) as [H'|H']; [simpl; tauto|lra|].
        unfold sgn in H'. destruct (Rlt_dec 0 (m_b m)); [discriminate|lra].
    + intros [H1 H2].
      assert (Hneg : forall x, x <= 0 -> x = 0 \/ sgn x = (-1)%Z).
      { intros x [Hl|Hl]; [right; apply sgn_neg; auto|auto]. }
      assert (Hpos : forall x, 0 <= x -> x = 0 \/ sgn x = 1%Z).
      { intros x [Hl|Hl]; [right; apply sgn_pos; auto|auto]. }
      assert (HrP : 0 <= 2 * (1 - r)) by lra.
      assert (HrQ : 0 <= 1 + 2 * r) by lra.
      destruct (Rlt_dec 0 eps) as [Ht|Ht].
      * assert (Hp1 : 0 <= 2 * (1 - r) * eps) by (apply Rmult_le_pos; lra).
        assert (Hp2 : 0 <= (1 + 2 * r) * eps) by (apply Rmult_le_pos; lra).
        intros v s. simpl. intros H.
        repeat destruct H as [H|H]; inversion H; subst; try contradiction;
          first [apply Hneg; nra|apply Hpos; nra].
      * assert (Hp1 : 2 * (1 - r) * eps <= 0) by nra.
        assert (Hp2 : (1 + 2 * r) * eps <= 0) by nra.
        intros v s. simpl. intros H.
        repeat destruct H as [H|H]; inversion H; subst; try contradiction;
          first [apply Hneg; nra|apply Hpos; nra].
  - intros e. destruct (strain_calculation_asserts k) as [[]|e'] eqn:E; [discriminate|].
    apply check_signs_err in E. congruence.
Qed.

(** InGaAs-like layer on GaAs: compressive, all signs as documented. *)
Definition ex_sub : mat := {|
  m_av := -1; m_ac := -7; m_b := -2; m_c11 := 12; m_c12 := 5; m_a := 5;
  m_so := 1/3; m_gap := 3/2; m_vbo := -1; m_g1 := 7; m_g2 := 2; m_g3 := 3; m_me := 1/15; m_Ep := 25 |}.
Definition ex_mat : mat := {|
  m_av := -1; m_ac := -6; m_b := -2; m_c11 := 10; m_c12 := 5; m_a := 6;
  m_so := 1/3; m_gap := 1; m_vbo := -1/2; m_g1 := 10; m_g2 := 3; m_g3 := 4; m_me := 1/20; m_Ep := 25 |}.
Example C53_sign_checks_example :
  elastic ex_mat /\ exists k, strain_calculation_parameters ex_sub ex_mat true = Ok k /\
    k_epsilon k = - (1 / 6) /\ k_dEc k = 1.
Proof.
  assert (He : elastic ex_mat) by (unfold elastic; simpl; lra).
  split; auto. destruct (C53_sign_checks ex_sub ex_mat true He) as [[_ H] _].
  destruct H as [k Hk]; [simpl; lra|]. exists k. split; auto.
  unfold strain_calculation_parameters in Hk.
  match type of Hk with context [strain_calculation_asserts ?z] =>
    destruct (strain_calculation_asserts z) end; [|discriminate].
  inversion Hk; subst; simpl; lra.
Qed.

Lemma params_ok sub m SO k : strain_calculation_parameters sub m SO = Ok k ->
  let av := Rabs (m_av m) in
  let eps := (m_a sub - m_a m) / m_a m in
  let perp := -2 * m_c12 m / m_c11 m * eps in
  let tre := eps + eps + perp in
  let Pe := - av * tre in
  let Qe := - m_b m / 2 * (eps + eps - 2 * perp) in
  let shift := (m_so m) ^ 2 + 2 * m_so m * Qe + 9 * Qe ^ 2 in
  k_epsilon k = eps /\ k_Tre k = tre /\ k_dEc k = m_ac m * tre /\ k_dEhh k = - Pe - Qe /\
  k_dElh k = (if SO then - Pe + / 2 * (Qe - m_so m + sqrt shift) else - Pe + Qe) /\
  k_dEso k = (if SO then - Pe + / 2 * (Qe - m_so m - sqrt shift) else 0) /\
  k_cb k = m_ac m * tre /\ k_vb k = av * tre /\
  k_shear k = 2 * m_b m * (1 + 2 * m_c12 m / m_c11 m) * eps.
Proof.
  unfold strain_calculation_parameters.
  match goal with |- context [strain_calculation_asserts ?z] =>
    destruct (strain_calculation_asserts z) end; [|discriminate].
  intro E; inversion E; subst; simpl. repeat split; reflexivity.
Qed.

(** C53: the computed hole and electron shifts are those of the k.p band edges: with
    the split-off band off they are the edges of [kp4x4], with it on those of [kp6x6],
    measured from the unstrained edges. *)
Theorem C53_agrees_with_kp : forall sub m SO k,
  strain_calculation_parameters sub m SO = Ok k ->
  m_vbo m + m_gap m + k_dEc k = b4_c (kp4x4 m sub) /\
  m_vbo m + m_gap m + k_dEc k = b6_c (kp6x6 m sub) /\
  m_vbo m + k_dEhh k = b4_hh (kp4x4 m sub) /\
  m_vbo m + k_dEhh k = b6_hh (kp6x6 m sub) /\
  (SO = false -> m_vbo m + k_dElh k = b4_lh (kp4x4 m sub)) /\
  (SO = true -> m_vbo m + k_dElh k = b6_lh (kp6x6 m sub) /\
                m_vbo m + k_dEso k = b6_so (kp6x6 m sub)).
Proof.
  intros sub m SO k H. apply params_ok in H. cbv zeta in H.
  destruct H as (_ & _ & H1 & H2 & H3 & H4 & _). rewrite H1, H2, H3, H4.
  assert (E : exx m sub = (m_a sub - m_a m) / m_a m) by reflexivity.
  assert (Ez : ezz m sub = -2 * m_c12 m / m_c11 m * exx m sub) by reflexivity.
  unfold kp4x4, kp6x6; simpl b4_c; simpl b6_c; simpl b4_hh; simpl b6_hh; simpl b4_lh; simpl b6_lh; simpl b6_so.
  unfold Oe, Pe, Qe. rewrite Ez, E.
  repeat split; intros; subst; simpl; try ring.
Qed.

(** C53: the shifts have the documented directions.  For a compressive layer the
    conduction edge moves up, the centre of the valence edges moves down, and the
    heavy-hole edge ends above the light-hole edge; for a tensile one the opposite.
    The hydrostatic and shear parts stored in the State add up to the shifts. *)
Theorem C53_directions : forall sub m k,
  elastic m -> m_ac m < 0 -> m_b m < 0 -> m_av m <> 0 ->
  strain_calculation_parameters sub m false = Ok k ->
  (m_a sub < m_a m -> 0 < k_dEc k /\ (k_dEhh k + k_dElh k) / 2 < 0 /\ k_dElh k < k_dEhh k) /\
  (m_a m < m_a sub -> k_dEc k < 0 /\ 0 < (k_dEhh k + k_dElh k) / 2 /\ k_dEhh k < k_dElh k) /\
  k_cb k = k_dEc k /\ k_vb k = (k_dEhh k + k_dElh k) / 2 /\ k_shear k = k_dEhh k - k_dElh k.
Proof.
  intros sub m k He Hac Hb Hav H. apply params_ok in H. cbv zeta in H.
  destruct H as (_ & _ & H1 & H2 & H3 & _ & H5 & H6 & H7).
  pose proof (ratio_bounds m He) as Hr. destruct He as (Hc & Hc12 & Ha).
  replace (-2 * m_c12 m / m_c11 m) with (-2 * (m_c12 m / m_c11 m)) in * by (unfold Rdiv; ring).
  replace (2 * m_c12 m / m_c11 m) with (2 * (m_c12 m / m_c11 m)) in H7 by (unfold Rdiv; ring).
  set (r := m_c12 m / m_c11 m) in *.
  set (eps := (m_a sub - m_a m) / m_a m) in *.
  assert (HA : 0 < Rabs (m_av m)) by (apply Rabs_pos_lt; auto).
  set (A := Rabs (m_av m)) in *.
  rewrite H1, H2, H3, H5, H6, H7.
  assert (Hcmp : m_a sub < m_a m -> eps < 0).
  { intro. unfold eps. apply (Rmult_lt_reg_r (m_a m)); [lra|]. unfold Rdiv.
    rewrite Rmult_assoc, Rinv_l by lra. lra. }
  assert (Hten : m_a m < m_a sub -> 0 < eps).
  { intro. unfold eps. apply Rdiv_lt_0_compat; lra. }
  replace (eps + eps + -2 * r * eps) with (2 * ((1 - r) * eps)) by ring.
  replace (eps + eps - 2 * (-2 * r * eps)) with (2 * ((1 + 2 * r) * eps)) by ring.
  clearbody r eps A. clear H1 H2 H3 H5 H6 H7.
  repeat split; try lra.
  - specialize (Hcmp H). assert ((1 - r) * eps < 0) by nra. nra.
  - specialize (Hcmp H). assert ((1 - r) * eps < 0) by nra. nra.
  - specialize (Hcmp H). assert ((1 + 2 * r) * eps < 0) by nra. nra.
  - specialize (Hten H). assert (0 < (1 - r) * eps) by nra. nra.
  - specialize (Hten H). assert (0 < (1 - r) * eps) by nra. nra.
  - specialize (Hten H). assert (0 < (1 + 2 * r) * eps) by nra. nra.
Qed.

(** C53: a lattice-matched layer has no shift of the conduction, heavy-hole and
    light-hole edges, with or without the split-off band. *)
Theorem C53_lattice_matched_partial : forall sub m SO k,
  m_a sub = m_a m -> 0 <= m_so m ->
  strain_calculation_parameters sub m SO = Ok k ->
  k_dEc k = 0 /\ k_dEhh k = 0 /\ k_dElh k = 0 /\ (SO = false -> k_dEso k = 0).
Proof.
  intros sub m SO k Ha Hso H. apply params_ok in H. cbv zeta in H.
  destruct H as (_ & _ & H1 & H2 & H3 & H4 & _). rewrite H1, H2, H3, H4, Ha.
  replace ((m_a m - m_a m) / m_a m) with 0 by (unfold Rdiv; ring).
  repeat split; try (intro Hs; subst SO; auto); try lra.
  destruct SO; [|lra].
  replace (m_so m ^ 2 + 2 * m_so m * (- m_b m / 2 * (0 + 0 - 2 * (-2 * m_c12 m / m_c11 m * 0))) +
     9 * (- m_b m / 2 * (0 + 0 - 2 * (-2 * m_c12 m / m_c11 m * 0))) ^ 2) with (m_so m ^ 2) by ring.
  rewrite sqrt_pow2 by auto. lra.
Qed.

(** With the split-off band the shift of that band is not zero for a lattice-matched
    layer: it contains the whole spin-orbit splitting. *)
Theorem C53_split_off_refuted : exists sub m k,
  m_a sub = m_a m /\ elastic m /\ 0 < m_so m /\
  strain_calculation_parameters sub m true = Ok k /\ k_dEso k = - m_so m /\ k_dEso k <> 0.
Proof.
  assert (He : elastic ex_mat) by (unfold elastic; simpl; lra).
  destruct (C53_sign_checks ex_mat ex_mat true He) as [[_ H] _].
  destruct H as [k Hk]; [simpl; lra|].
  exists ex_mat, ex_mat, k.
  assert (Hs : k_dEso k = - m_so ex_mat).
  { pose proof (params_ok _ _ _ _ Hk) as P. cbv zeta in P. destruct P as (_ & _ & _ & _ & _ & P & _).
    rewrite P. simpl.
    replace ((6 - 6) / 6) with 0 by lra.
    match goal with |- context [sqrt ?z] => replace z with ((1/3) ^ 2) by lra end.
    rewrite sqrt_pow2 by lra. lra. }
  split; [reflexivity|]. split; [exact He|]. split; [simpl; lra|]. split; [exact Hk|].
  split; [exact Hs|]. rewrite Hs. simpl. lra.
Qed.

(** * C88: the strained masses of [kp6x6] *)

(** C88: the coupling of the light-hole and split-off bands moves mass between the
    two but keeps the sum of their inverse masses: it is the sum for the uncoupled
    bands, g1+2*g2 and g1 along growth and g1-g2 and g1 in the plane, for every
    strain at which the formulas are defined. *)
Definition defined_at (x : R) (s : R) : Prop :=
  3 / 4 * (x - 1 + s * sqrt (1 + 2 * x + 9 * x ^ 2)) ^ 2 +
    (x - 1 + s * sqrt (1 + 2 * x + 9 * x ^ 2)) - 3 * x ^ 2 <> 0.

Lemma kp_f_sum x : defined_at x 1 -> defined_at x (-1) -> kp_f x 1 + kp_f x (-1) = 1.
Proof.
  unfold defined_at, kp_f, com. intros H1 H2.
  assert (Hp : 0 <= 1 + 2 * x + 9 * x ^ 2).
  { replace (1 + 2 * x + 9 * x ^ 2) with ((1 + x) ^ 2 + 8 * x ^ 2) by ring.
    apply Rplus_le_le_0_compat; [apply pow2_ge_0|]. pose proof (pow2_ge_0 x). lra. }
  pose proof (sqrt_sqrt _ Hp) as Hs. set (w := sqrt (1 + 2 * x + 9 * x ^ 2)) in *.
  clearbody w. replace (1 * w) with w in * by ring. replace (-1 * w) with (- w) in * by ring.
  set (D1 := 3 / 4 * (x - 1 + w) ^ 2 + (x - 1 + w) - 3 * x ^ 2) in *.
  set (D2 := 3 / 4 * (x - 1 + - w) ^ 2 + (x - 1 + - w) - 3 * x ^ 2) in *.
  assert (K : (2 * x * (1 + 3 / 2 * (x - 1 + w)) + 6 * x ^ 2) * D2 +
              (2 * x * (1 + 3 / 2 * (x - 1 + - w)) + 6 * x ^ 2) * D1 = D1 * D2).
  { unfold D1, D2.
    cut (forall p, p = w * w -> p = 1 + 2 * x + 9 * x ^ 2 ->
      let e := x - 1 in
      2 * (2 * x * (1 + 3 / 2 * e) + 6 * x ^ 2) * (3 / 4 * (e ^ 2 + p) + e - 3 * x ^ 2) -
      2 * (3 * x) * (3 / 2 * e + 1) * p =
      (3 / 4 * (e ^ 2 + p) + e - 3 * x ^ 2) ^ 2 - (3 / 2 * e + 1) ^ 2 * p).
    { intro K. specialize (K (w * w) eq_refl Hs). cbv zeta in K.
      match type of K with ?l = ?r => transitivity l; [field|transitivity r; [exact K|field]] end. }
    intros p _ -> e. unfold e. field. }
  clearbody D1 D2.
  apply (Rmult_eq_reg_r (D1 * D2)); [|apply Rmult_integral_contrapositive_currified; auto].
  rewrite Rmult_1_l. etransitivity; [|exact K]. field. split; auto.
Qed.

Theorem C88_mass_sum : forall m host,
  let x := kp_x m host in
  let inv v := electron_mass / v in
  defined_at x 1 -> defined_at x (-1) ->
  m_g1 m + 2 * kp_f x 1 * m_g2 m <> 0 -> m_g1 m + 2 * kp_f x (-1) * m_g2 m <> 0 ->
  m_g1 m - kp_f x 1 * m_g2 m <> 0 -> m_g1 m - kp_f x (-1) * m_g2 m <> 0 ->
  inv (b6_lh_p (kp6x6 m host)) + inv (b6_so_p (kp6x6 m host)) = 2 * m_g1 m + 2 * m_g2 m /\
  inv (b6_lh_t (kp6x6 m host)) + inv (b6_so_t (kp6x6 m host)) = 2 * m_g1 m - m_g2 m.
Proof.
  intros m host x inv H1 H2 H3 H4 H5 H6. unfold inv, kp6x6; simpl. fold x.
  pose proof (kp_f_sum x H1 H2) as Hs. pose proof electron_mass_pos as Hm.
  set (f1 := kp_f x 1) in *. set (f2 := kp_f x (-1)) in *. clearbody f1 f2.
  assert (E : forall d, d <> 0 -> electron_mass / (1 / d * electron_mass) = d).
  { intros d Hd. field. split; lra. }
  rewrite !E by assumption.
  replace f2 with (1 - f1) by lra. split; ring.
Qed.

Example C88_mass_sum_example :
  let m := ex_mat in
  kp_x m ex_sub = -2 /\ defined_at (-2) 1 /\ defined_at (-2) (-1).
Proof.
  assert (Hs : sqrt (1 + 2 * -2 + 9 * (-2) ^ 2) = sqrt 33) by (f_equal; lra).
  assert (H5 : 5 < sqrt 33).
  { rewrite <- (sqrt_pow2 5) by lra. apply sqrt_lt_1; lra. }
  assert (H6 : sqrt 33 < 6).
  { rewrite <- (sqrt_pow2 6) by lra. apply sqrt_lt_1; lra. }
  split.
  - unfold kp_x, Qe, ezz, exx. simpl.
    match goal with |- context [Req_EM_T ?z 0] => replace z with (-2) by field end.
    destruct (Req_EM_T (-2) 0); lra.
  - unfold defined_at. rewrite Hs. pose proof (sqrt_sqrt 33 ltac:(lra)) as Hq.
    set (w := sqrt 33) in *. clearbody w. split; nra.
Qed.

(** * C52 *)

(** The biaxial modulus of a cubic layer and the elastic energy per unit area of a
    well and a barrier forced to the in-plane lattice constant [a] (lattice constants
    in any unit). *)
Definition modulus (c11 c12 : R) : R := c11 + c12 - 2 * c12 ^ 2 / c11.
Definition energy (M1 t1 a1 M2 t2 a2 a : R) : R :=
  M1 * t1 * ((a - a1) / a1) ^ 2 + M2 * t2 * ((a - a2) / a2) ^ 2.
(** Its derivative: the average in-plane stress. *)
Definition stress (M1 t1 a1 M2 t2 a2 a : R) : R :=
  M1 * t1 * (a - a1) / a1 ^ 2 + M2 * t2 * (a - a2) / a2 ^ 2.

Lemma energy_derive M1 t1 a1 M2 t2 a2 a :
  a1 <> 0 -> a2 <> 0 ->
  is_derive (energy M1 t1 a1 M2 t2 a2) a (2 * stress M1 t1 a1 M2 t2 a2 a).
Proof.
  intros H1 H2. unfold energy, stress. auto_derive; auto. field. auto.
Qed.

(** Parameters of the three materials at the given fractions. *)
Definition known (gp : lookup) (m : string) (x T c11 c12 a : R) : Prop :=
  gp m "c11" x T = Ok c11 /\ gp m "c12" x T = Ok c12 /\ gp m "lattice_constant" x T = Ok a.

Lemma ten10 : 10 ^ 10 <> 0.
Proof. apply pow_nonzero. lra. Qed.
Lemma angstrom_minus a b : angstrom a - angstrom b = (a - b) / 10 ^ 10.
Proof. unfold angstrom. field. Qed.

(** C52: the structure returned when a thickness is optimised has zero average
    in-plane stress at the lattice constant of the substrate: the elastic energy is
    stationary there, and it is the minimum when the moduli and thicknesses are not
    negative. *)
Theorem C52_zero_stress : forall gp well t1 x1 barrier t2 x2 lat x0 option T
    c11 c12 a1 d11 d12 a2 e11 e12 a0 r,
  known gp well x1 T c11 c12 a1 -> known gp barrier x2 T d11 d12 a2 ->
  known gp lat x0 T e11 e12 a0 ->
  a1 <> 0 -> a2 <> 0 -> a0 <> a1 -> a0 <> a2 ->
  modulus c11 c12 <> 0 -> modulus d11 d12 <> 0 ->
  option = "well_thickness" \/ option = "barrier_thickness" ->
  optimise gp well t1 x1 barrier t2 x2 lat x0 option T = Ok r ->
  r_x1 r = x1 /\ r_x2 r = x2 /\
  (option = "well_thickness" -> r_t2 r = t2) /\ (option = "barrier_thickness" -> r_t1 r = t1) /\
  stress (modulus c11 c12) (r_t1 r) a1 (modulus d11 d12) (r_t2 r) a2 a0 = 0 /\
  is_derive (energy (modulus c11 c12) (r_t1 r) a1 (modulus d11 d12) (r_t2 r) a2) a0 0 /\
  (0 <= modulus c11 c12 -> 0 <= modulus d11 d12 -> 0 <= r_t1 r -> 0 <= r_t2 r ->
   forall a, energy (modulus c11 c12) (r_t1 r) a1 (modulus d11 d12) (r_t2 r) a2 a0 <=
             energy (modulus c11 c12) (r_t1 r) a1 (modulus d11 d12) (r_t2 r) a2 a).
Proof.
  intros gp well t1 x1 barrier t2 x2 lat x0 option T c11 c12 a1 d11 d12 a2 e11 e12 a0 r
    (Hc1 & Hc2 & Ha1) (Hd1 & Hd2 & Ha2) (_ & _ & Ha0) H1 H2 H01 H02 HM1 HM2 Ho.
  unfold optimise, stiffness, lattice, bindR. rewrite Hc1, Hc2, Ha1, Hd1, Hd2, Ha2, Ha0.
  fold (modulus c11 c12) (modulus d11 d12). rewrite !angstrom_minus. unfold angstrom.
  intro E.
  assert (S : r_x1 r = x1 /\ r_x2 r = x2 /\
    (option = "well_thickness" -> r_t2 r = t2) /\ (option = "barrier_thickness" -> r_t1 r = t1) /\
    stress (modulus c11 c12) (r_t1 r) a1 (modulus d11 d12) (r_t2 r) a2 a0 = 0).
  { set (M1 := modulus c11 c12) in *. set (M2 := modulus d11 d12) in *. clearbody M1 M2.
    pose proof ten10 as Ht. set (K := 10 ^ 10) in *. clearbody K.
    destruct Ho; subst option; simpl in E; inversion E; subst; simpl;
      (split; [reflexivity|split; [reflexivity|split; [auto; discriminate|split; [auto; discriminate|]]]]);
      unfold stress; field; repeat split; try assumption; lra. }
  destruct S as (S1 & S2 & S3 & S4 & S5). repeat (split; [assumption|]). split.
  - replace 0 with (2 * stress (modulus c11 c12) (r_t1 r) a1 (modulus d11 d12) (r_t2 r) a2 a0) at 1
      by (rewrite S5; ring).
    apply energy_derive; assumption.
  - intros P1 P2 P3 P4 a. unfold energy. unfold stress in S5.
    set (M1 := modulus c11 c12) in *. set (M2 := modulus d11 d12) in *. clearbody M1 M2.
    set (u1 := r_t1 r) in *. set (u2 := r_t2 r) in *. clearbody u1 u2.
    assert (Q1 : 0 <= M1 * u1) by (apply Rmult_le_pos; assumption).
    assert (Q2 : 0 <= M2 * u2) by (apply Rmult_le_pos; assumption).
    assert (EE : M1 * u1 * ((a - a1) / a1) ^ 2 + M2 * u2 * ((a - a2) / a2) ^ 2 =
      M1 * u1 * ((a0 - a1) / a1) ^ 2 + M2 * u2 * ((a0 - a2) / a2) ^ 2 +
      2 * (a - a0) * (M1 * u1 * (a0 - a1) / a1 ^ 2 + M2 * u2 * (a0 - a2) / a2 ^ 2) +
      (M1 * u1 * ((a - a0) / a1) ^ 2 + M2 * u2 * ((a - a0) / a2) ^ 2)) by (field; auto).
    rewrite EE, S5.
    pose proof (Rmult_le_pos _ _ Q1 (pow2_ge_0 ((a - a0) / a1))).
    pose proof (Rmult_le_pos _ _ Q2 (pow2_ge_0 ((a - a0) / a2))). lra.
Qed.

(** A compressive well and a tensile barrier of the same stiffness. *)
Definition ex_gp : lookup := fun m p x T =>
  if String.eqb p "c11" then Ok 12 else if String.eqb p "c12" then Ok 6
  else if String.eqb p "lattice_constant" then
    Ok (if String.eqb m "W" then 6 else if String.eqb m "B" then 4 else 5)
  else Err KeyError.
Example C52_zero_stress_example :
  exists r, optimise ex_gp "W" 3 0 "B" 8 0 "S" 0 "well_thickness" 300 = Ok r /\ r_t1 r = 18.
Proof.
  unfold optimise, stiffness, lattice, ex_gp, bindR, angstrom; simpl.
  eexists; split; [reflexivity|]. simpl. field. 
Qed.

(** C52: the returned thickness is positive exactly when the strains of the two
    layers have opposite signs. *)
Theorem C52_thickness_sign : forall gp well t1 x1 barrier t2 x2 lat x0 T
    c11 c12 a1 d11 d12 a2 e11 e12 a0 r,
  known gp well x1 T c11 c12 a1 -> known gp barrier x2 T d11 d12 a2 ->
  known gp lat x0 T e11 e12 a0 ->
  0 < a1 -> 0 < a2 -> a0 <> a1 -> a0 <> a2 -> 0 < t2 ->
  0 < modulus c11 c12 -> 0 < modulus d11 d12 ->
  optimise gp well t1 x1 barrier t2 x2 lat x0 "well_thickness" T = Ok r ->
  (0 < r_t1 r <-> (a0 - a1) * (a0 - a2) < 0).
Proof.
  intros gp well t1 x1 barrier t2 x2 lat x0 T c11 c12 a1 d11 d12 a2 e11 e12 a0 r
    K1 K2 K3 H1 H2 H01 H02 Ht HM1 HM2 E.
  destruct (C52_zero_stress gp well t1 x1 barrier t2 x2 lat x0 "well_thickness" T
    c11 c12 a1 d11 d12 a2 e11 e12 a0 r K1 K2 K3) as (_ & _ & S3 & _ & S5 & _); auto; try lra.
  rewrite (S3 eq_refl) in S5. unfold stress in S5.
  set (M1 := modulus c11 c12) in *. set (M2 := modulus d11 d12) in *. clearbody M1 M2.
  set (u := r_t1 r) in *. clearbody u.
  assert (F : M1 * u * (a0 - a1) * a2 ^ 2 = - (M2 * t2 * (a0 - a2) * a1 ^ 2)).
  { apply (Rmult_eq_compat_r (a1 ^ 2 * a2 ^ 2)) in S5.
    match type of S5 with ?l = _ =>
      replace l with (M1 * u * (a0 - a1) * a2 ^ 2 + M2 * t2 * (a0 - a2) * a1 ^ 2) in S5 end.
    lra. field. split; lra. }
  assert (Q1 : 0 < a1 ^ 2) by (apply pow_lt; lra).
  assert (Q2 : 0 < a2 ^ 2) by (apply pow_lt; lra).
  set (s1 := a0 - a1) in *. set (s2 := a0 - a2) in *.
  assert (N1 : s1 <> 0) by (unfold s1; lra). assert (N2 : s2 <> 0) by (unfold s2; lra).
  clearbody s1 s2.
  assert (P1 : 0 < M1 * a2 ^ 2) by (apply Rmult_lt_0_compat; assumption).
  assert (P2 : 0 < M2 * t2 * a1 ^ 2) by (apply Rmult_lt_0_compat; [apply Rmult_lt_0_compat|]; assumption).
  assert (F' : (M1 * a2 ^ 2) * (u * s1) = - ((M2 * t2 * a1 ^ 2) * s2)) by lra.
  set (p := M1 * a2 ^ 2) in *. set (r' := M2 * t2 * a1 ^ 2) in *. clearbody p r'.
  assert (S1 : 0 < s1 * s1) by nra. assert (S2 : 0 < s2 * s2) by nra.
  split; intro HH.
  - assert (p * (u * (s1 * s1)) = - (r' * (s1 * s2))) by nra.
    assert (0 < p * (u * (s1 * s1))) by (apply Rmult_lt_0_compat; [|apply Rmult_lt_0_compat]; assumption). nra.
  - assert (p * (u * (s1 * s1)) = - (r' * (s1 * s2))) by nra.
    assert (0 < r' * - (s1 * s2)) by (apply Rmult_lt_0_compat; lra).
    assert (0 < p * (u * (s1 * s1))) by lra.
    destruct (Rle_or_lt u 0) as [Hu|Hu]; [|exact Hu]. exfalso.
    assert (0 <= p * (- u * (s1 * s1))) by (apply Rmult_le_pos; [lra|apply Rmult_le_pos; lra]). lra.
Qed.

(** Two layers strained the same way: a negative thickness is returned, no error. *)
Theorem C52_positive_thickness_refuted : exists gp well barrier lat t1 t2 r,
  0 < t1 /\ 0 < t2 /\
  optimise gp well t1 0 barrier t2 0 lat 0 "well_thickness" 300 = Ok r /\ r_t1 r < 0.
Proof.
  exists ex_gp, "W", "W", "S", 1, 1.
  unfold optimise, stiffness, lattice, ex_gp, bindR, angstrom; simpl.
  eexists; split; [lra|split; [lra|split; [reflexivity|]]]. simpl. lra.
Qed.

(** C52: when the fraction of the well is optimised, the returned fraction lies in
    [0,1] and is balanced up to the tolerance of the root finder: the average stress is
    zero there, or has opposite signs there and at a fraction closer than the
    tolerance. *)
Definition stress_well (gp : lookup) well T t1 M2 t2 a2 a0 (x s : R) : Prop :=
  exists c11 c12 a1, known gp well x T c11 c12 a1 /\
    s = stress (modulus c11 c12) t1 a1 M2 t2 a2 a0.

Lemma misfit_stress A1 t1 a1 A2 t2 a2 a0 :
  a1 <> 0 -> a2 <> 0 -> a0 <> a2 -> A2 <> 0 ->
  misfit A1 t1 (angstrom a1) A2 t2 (angstrom a2) (angstrom a0) =
  - (stress A1 t1 a1 A2 t2 a2 a0 * (a2 ^ 2 / (A2 * (a0 - a2)))).
Proof.
  intros. unfold misfit. rewrite !angstrom_minus. unfold angstrom, stress.
  pose proof ten10 as Ht. set (K := 10 ^ 10) in *. clearbody K. field. repeat split; try assumption; lra.
Qed.

Theorem C52_well_fraction : forall gp well t1 x1 barrier t2 x2 lat x0 T
    d11 d12 a2 e11 e12 a0 r,
  known gp barrier x2 T d11 d12 a2 -> known gp lat x0 T e11 e12 a0 ->
  (forall x a, gp well "lattice_constant" x T = Ok a -> a <> 0) ->
  a2 <> 0 -> a0 <> a2 -> modulus d11 d12 <> 0 ->
  optimise gp well t1 x1 barrier t2 x2 lat x0 "well_fraction" T = Ok r ->
  r_t1 r = t1 /\ r_t2 r = t2 /\ r_x2 r = x2 /\ 0 <= r_x1 r <= 1 /\
  exists s, stress_well gp well T t1 (modulus d11 d12) t2 a2 a0 (r_x1 r) s /\
    (s = 0 \/ exists y s', 0 <= y <= 1 /\ Rabs (r_x1 r - y) < 2 / 10 ^ 12 + 4 / 2 ^ 52 /\
       stress_well gp well T t1 (modulus d11 d12) t2 a2 a0 y s' /\ s * s' < 0).
Proof.
  intros gp well t1 x1 barrier t2 x2 lat x0 T d11 d12 a2 e11 e12 a0 r
    (Hd1 & Hd2 & Ha2) (_ & _ & Ha0) Hnz H2 H02 HM.
  unfold optimise, stiffness, lattice, bindR.
  destruct (gp well "c11" x1 T) as [c11|]; [|discriminate].
  destruct (gp well "c12" x1 T) as [c12|]; [|discriminate].
  destruct (gp well "lattice_constant" x1 T) as [a1|]; [|discriminate].
  rewrite Hd1, Hd2, Ha2, Ha0. fold (modulus d11 d12).
  change (String.eqb "well_fraction" "barrier_thickness") with false.
  change (String.eqb "well_fraction" "well_thickness") with false.
  change (String.eqb "well_fraction" "well_fraction") with true. cbv iota.
  match goal with |- context [bisect ?f 0 1] => set (func := f) end.
  destruct (bisect func 0 1) as [x|] eqn:Eb; [|discriminate]. intro E; inversion E; subst; cbn [r_t1 r_t2 r_x1 r_x2].
  apply bisect_ok in Eb; [|lra]. destruct Eb as [Hx Hr].
  set (M2 := modulus d11 d12) in *. set (w := a2 ^ 2 / (M2 * (a0 - a2))).
  assert (Hw : w <> 0).
  { unfold w. apply Rmult_integral_contrapositive_currified; [apply pow_nonzero; assumption|].
    apply Rinv_neq_0_compat. apply Rmult_integral_contrapositive_currified; lra. }
  assert (Hf : forall y v, func y = Ok v ->
    exists s, stress_well gp well T t1 M2 t2 a2 a0 y s /\ v = - (s * w)).
  { intros y v. unfold func.
    destruct (gp well "c11" y T) as [b11|] eqn:E1; [|discriminate].
    destruct (gp well "c12" y T) as [b12|] eqn:E2; [|discriminate].
    destruct (gp well "lattice_constant" y T) as [b|] eqn:E3; [|discriminate].
    intro Ev; inversion Ev; subst. eexists; split.
    - exists b11, b12, b. split; [repeat split; assumption|reflexivity].
    - apply misfit_stress; try assumption. eapply Hnz; eassumption. }
  repeat (split; [try reflexivity; try lra|]).
  destruct Hr as [Hr|(y & u & v & Hy & Hn & Hu & Hv & Ho)].
  - destruct (Hf _ _ Hr) as (s & Hs & Es). exists s. split; [exact Hs|left].
    assert (s * w = 0) by lra. apply Rmult_integral in H. tauto.
  - destruct (Hf _ _ Hu) as (s & Hs & Es). destruct (Hf _ _ Hv) as (s' & Hs' & Es').
    exists s. split; [exact Hs|right]. exists y, s'. split; [exact Hy|]. split.
    + unfold near, xtol, rtol in Hn. rewrite (Rabs_right x) in Hn by lra.
      assert (Hq : 0 <= 4 / 2 ^ 52) by lra. set (e := 4 / 2 ^ 52) in *. clearbody e. nra.
    + split; [exact Hs'|]. unfold opposite in Ho. subst u v.
      assert (0 < w * w) by nra. set (z := w * w) in *.
      assert (s * s' * z < 0) by (unfold z; lra). nra.
Qed.

(** The fraction of a well whose lattice constant grows from 4 to 6. *)
Definition ex_gp2 : lookup := fun m p x T =>
  if String.eqb p "c11" then Ok 12 else if String.eqb p "c12" then Ok 6
  else if String.eqb p "lattice_constant" then
    Ok (if String.eqb m "W" then 4 + 2 * x else if String.eqb m "B" then 4
        else if String.eqb m "V" then 8 / 3 - x else if String.eqb m "U" then 3
        else if String.eqb m "L" then 2 else 5)
  else Err KeyError.
Example C52_well_fraction_example :
  exists r, optimise ex_gp2 "W" 1 0 "B" (1 / 10) 0 "S" 0 "well_fraction" 300 = Ok r.
Proof.
  unfold optimise, stiffness, lattice, bindR. simpl.
  match goal with |- context [bisect ?f 0 1] => set (func := f) end.
  assert (Hf : forall x, 0 <= x <= 1 -> func x =
    Ok (- (stress 12 1 (4 + 2 * x) 12 (1 / 10) 4 5 * (4 ^ 2 / (12 * (5 - 4)))))).
  { intros x Hx. unfold func. f_equal.
    replace (12 + 6 - 2 * (6 * (6 * 1)) / 12) with 12 by lra.
    rewrite <- misfit_stress by lra. reflexivity. }
  destruct (bisect_total func 0 1 (- (stress 12 1 (4 + 2 * 0) 12 (1 / 10) 4 5 * (4 ^ 2 / (12 * (5 - 4)))))
     (- (stress 12 1 (4 + 2 * 1) 12 (1 / 10) 4 5 * (4 ^ 2 / (12 * (5 - 4)))))) as [x ->];
    try lra; try (apply Hf; lra).
  - pose proof bracket_100. lra.
  - intros x Hx. rewrite Hf by exact Hx. eauto.
  - unfold opposite, stress. lra.
  - eexists. reflexivity.
Qed.

(** When the fraction of the barrier is optimised the denominator of the misfit
    changes sign with the fraction: for a barrier that becomes lattice matched inside
    the range a fraction is returned although no fraction is balanced. *)
Theorem C52_barrier_fraction_refuted : exists gp well barrier lat t1 t2 r,
  0 < t1 /\ 0 < t2 /\
  optimise gp well t1 0 barrier t2 0 lat 0 "barrier_fraction" 300 = Ok r /\
  forall x, 0 <= x <= 1 -> exists c11 c12 a1 d11 d12 a2 e11 e12 a0,
    known gp well 0 300 c11 c12 a1 /\ known gp barrier x 300 d11 d12 a2 /\
    known gp lat 0 300 e11 e12 a0 /\ 0 < a1 /\ 0 < a2 /\ 0 < a0 /\
    0 < modulus c11 c12 /\ 0 < modulus d11 d12 /\
    stress (modulus c11 c12) t1 a1 (modulus d11 d12) t2 a2 a0 <> 0.
Proof.
  exists ex_gp2, "U", "V", "L", 1, (1 / 100).
  assert (E : exists r, optimise ex_gp2 "U" 1 0 "V" (1 / 100) 0 "L" 0 "barrier_fraction" 300 = Ok r).
  { unfold optimise, stiffness, lattice, bindR. simpl.
    match goal with |- context [bisect ?f 0 1] => set (func := f) end.
    assert (Hf : forall x, 0 <= x <= 1 -> exists v, func x = Ok v).
    { intros x Hx. unfold func.
      destruct (Req_EM_T (angstrom 2) (angstrom (8 / 3 - x))); [|eauto].
      destruct (Req_EM_T x 0); eauto. }
    assert (Hne : forall b, b <> 2 -> angstrom 2 <> angstrom b).
    { intros b Hb Eb. apply Hb. unfold angstrom, Rdiv in Eb.
      apply Rmult_eq_reg_r in Eb; [lra|apply Rinv_neq_0_compat; apply ten10]. }
    destruct (bisect_total func 0 1
      (- (stress 12 1 3 12 (1 / 100) (8 / 3) 2 * ((8 / 3) ^ 2 / (12 * (2 - 8 / 3)))))
      (- (stress 12 1 3 12 (1 / 100) (5 / 3) 2 * ((5 / 3) ^ 2 / (12 * (2 - 5 / 3)))))) as [x ->];
      try lra.
    - pose proof bracket_100. lra.
    - exact Hf.
    - unfold func. destruct (Req_EM_T (angstrom 2) (angstrom (8 / 3 - 0))) as [Ee|_].
      { exfalso. apply (Hne (8 / 3 - 0)); [lra|exact Ee]. }
      f_equal. replace (12 + 6 - 2 * (6 * (6 * 1)) / 12) with 12 by lra.
      replace (8 / 3 - 0) with (8 / 3) by lra. apply misfit_stress; lra.
    - unfold func. destruct (Req_EM_T (angstrom 2) (angstrom (8 / 3 - 1))) as [Ee|_].
      { exfalso. apply (Hne (8 / 3 - 1)); [lra|exact Ee]. }
      f_equal. replace (12 + 6 - 2 * (6 * (6 * 1)) / 12) with 12 by lra.
      replace (8 / 3 - 1) with (5 / 3) by lra. apply misfit_stress; lra.
    - unfold opposite, stress. lra.
    - eexists. reflexivity. }
  destruct E as [r E]. exists r. split; [lra|]. split; [lra|]. split; [exact E|].
  intros x Hx. exists 12, 6, 3, 12, 6, (8 / 3 - x), 12, 6, 2.
  repeat split; try (simpl; lra); unfold modulus; try lra.
  replace (12 + 6 - 2 * 6 ^ 2 / 12) with 12 by lra.
  unfold stress. set (a := 8 / 3 - x).
  assert (Ha : 5 / 3 <= a <= 8 / 3) by (unfold a; lra). clearbody a.
  intro S. apply (Rmult_eq_compat_r (a ^ 2)) in S.
  match type of S with ?l = _ =>
    replace l with (- (4 / 3) * a ^ 2 + 12 / 100 * (2 - a)) in S by (field; lra) end.
  nra.
Qed.

(** An option that is not one of the four documented ones is not refused: the inputs
    come back unchanged. *)
Theorem C52_unknown_option_ignored : forall gp well t1 x1 barrier t2 x2 lat x0 option T
    c11 c12 a1 d11 d12 a2 e11 e12 a0,
  known gp well x1 T c11 c12 a1 -> known gp barrier x2 T d11 d12 a2 -> known gp lat x0 T e11 e12 a0 ->
  ~ In option ["barrier_thickness"; "well_thickness"; "barrier_fraction"; "well_fraction"] ->
  optimise gp well t1 x1 barrier t2 x2 lat x0 option T =
    Ok {| r_t1 := t1; r_x1 := x1; r_t2 := t2; r_x2 := x2 |}.
Proof.
  intros gp well t1 x1 barrier t2 x2 lat x0 option T c11 c12 a1 d11 d12 a2 e11 e12 a0
    (H1 & H2 & H3) (H4 & H5 & H6) (H7 & H8 & H9) Hn.
  unfold optimise, stiffness, lattice, bindR. rewrite H1, H2, H3, H4, H5, H6, H9.
  destruct (String.eqb_spec option "barrier_thickness"); [subst; simpl in Hn; tauto|].
  destruct (String.eqb_spec option "well_thickness"); [subst; simpl in Hn; tauto|].
  destruct (String.eqb_spec option "well_fraction"); [subst; simpl in Hn; tauto|].
  destruct (String.eqb_spec option "barrier_fraction"); [subst; simpl in Hn; tauto|].
  reflexivity.
Qed.

(** * C89: critical thickness *)

(** The Matthews-Blakeslee condition for a layer with Poisson ratio [v] and misfit [f]:
    the ratio [hb] of critical thickness to Burgers vector satisfies
    hb = (1 - v/4) / (pi f (1 + v)) * (ln hb + 1). *)
Definition matthews_blakeslee (v f hb : R) : Prop :=
  hb = (1 - v / 4) / (PI * f * (1 + v)) * (ln hb + 1).

Lemma ln_1e10 : ln (10 ^ 10) = 10 * ln 10.
Proof. rewrite ln_pow by lra. f_equal. simpl. lra. Qed.
Lemma PI_gt_3 : 3 < PI.
Proof. pose proof PI2_3_2. unfold PI2 in *. lra. Qed.

Lemma mb_sign v f hb : 1 <= hb ->
  mb v f hb = (exp (ln hb) - mb_const v f * (ln hb + 1)) / (ln hb + 1) /\ 0 < ln hb + 1.
Proof.
  intro H. assert (0 <= ln hb).
  { rewrite <- ln_1. destruct H as [H| <-]; [left; apply ln_increasing; lra|lra]. }
  split; [|lra]. unfold mb. rewrite exp_ln by lra. field. lra.
Qed.

Lemma mb_neg_1_3 v f hb : 2 <= mb_const v f -> 1 <= hb <= 3 -> mb v f hb < 0.
Proof.
  intros HK Hh. destruct (mb_sign v f hb) as [-> Hp]; [lra|].
  assert (Hl : 1 - / hb <= ln hb).
  { assert (E : ln hb = - ln (/ hb)) by (rewrite ln_Rinv; lra). rewrite E.
    pose proof (Rinv_0_lt_compat hb ltac:(lra)) as Hi.
    pose proof (exp_ineq1_le (ln (/ hb))) as He. rewrite exp_ln in He by lra. lra. }
  assert (N : exp (ln hb) - mb_const v f * (ln hb + 1) < 0).
  { rewrite exp_ln by lra. set (K := mb_const v f) in *. set (l := ln hb) in *. clearbody K l.
    assert (Hi : hb * / hb = 1) by (apply Rinv_r; lra).
    pose proof (Rinv_0_lt_compat hb ltac:(lra)) as Hp'.
    set (i := / hb) in *. clearbody i.
    assert (hb < 2 * (2 - i)). { nra. }
    assert (2 * (l + 1) <= K * (l + 1)) by (apply Rmult_le_compat_r; lra). lra. }
  apply Ropp_lt_cancel. rewrite Ropp_0. unfold Rdiv. rewrite Ropp_mult_distr_l.
  apply Rmult_lt_0_compat; [lra|apply Rinv_0_lt_compat; lra].
Qed.

(** Between two thickness ratios above 1 with opposite signs there is a solution. *)
Lemma mb_root v f x y : 0 < f -> 0 <= v -> 1 <= x -> 1 <= y -> opposite (mb v f x) (mb v f y) ->
  exists r, 1 <= r /\ Rabs (x - r) <= Rabs (x - y) /\ matthews_blakeslee v f r.
Proof.
  intros Hf Hv Hx Hy Ho.
  set (K := mb_const v f).
  set (k := fun t => exp t - K * (t + 1)).
  assert (Hc : Ranalysis1.continuity k).
  { intro t. unfold k. apply derivable_continuous_pt. exists (exp t - K).
    apply is_derive_Reals. auto_derive; auto. ring. }
  assert (MB : forall t, k t = 0 -> matthews_blakeslee v f (exp t)).
  { intros t Ht. unfold matthews_blakeslee. rewrite ln_exp.
    unfold k, K, mb_const in Ht. replace (PI * f) with (f * PI) by ring. lra. }
  destruct (mb_sign v f x Hx) as [Ex Px]. destruct (mb_sign v f y Hy) as [Ey Py].
  fold K in Ex, Ey. change (exp (ln x) - K * (ln x + 1)) with (k (ln x)) in Ex.
  change (exp (ln y) - K * (ln y + 1)) with (k (ln y)) in Ey.
  assert (Hk : k (ln x) * k (ln y) < 0).
  { unfold opposite in Ho. rewrite Ex, Ey in Ho.
    set (u := k (ln x)) in *. set (w := k (ln y)) in *. set (p := ln x + 1) in *. set (r := ln y + 1) in *.
    clearbody u w p r.
    assert (E : u * w = (u / p * (w / r)) * (p * r)) by (field; split; lra).
    assert (0 < p * r) by nra. rewrite E. nra. }
  destruct (Rle_or_lt x y) as [Hxy|Hxy].
  - destruct (IVT_cor k (ln x) (ln y) Hc) as [z [Hz Kz]].
    { destruct Hxy as [Hxy| ->]; [left; apply ln_increasing; lra|lra]. }
    { lra. }
    exists (exp z). assert (x <= exp z <= y).
    { split; [rewrite <- (exp_ln x) by lra|rewrite <- (exp_ln y) by lra].
      - destruct Hz as [[Hz|Hz] _]; [left; apply exp_increasing; auto|rewrite Hz; lra].
      - destruct Hz as [_ [Hz|Hz]]; [left; apply exp_increasing; auto|rewrite Hz; lra]. }
    split; [lra|]. split; [|apply MB; auto].
    rewrite !Rabs_left1 by lra. lra.
  - destruct (IVT_cor k (ln y) (ln x) Hc) as [z [Hz Kz]].
    { left. apply ln_increasing; lra. }
    { lra. }
    exists (exp z). assert (y <= exp z <= x).
    { split; [rewrite <- (exp_ln y) by lra|rewrite <- (exp_ln x) by lra].
      - destruct Hz as [[Hz|Hz] _]; [left; apply exp_increasing; auto|rewrite Hz; lra].
      - destruct Hz as [_ [Hz|Hz]]; [left; apply exp_increasing; auto|rewrite Hz; lra]. }
    split; [lra|]. split; [|apply MB; auto].
    rewrite !Rabs_right by lra. lra.
Qed.

Lemma mb_zero v f x : 1 <= x -> mb v f x = 0 -> matthews_blakeslee v f x.
Proof.
  intros Hx H. destruct (mb_sign v f x Hx) as [E P]. rewrite E in H. unfold matthews_blakeslee.
  rewrite exp_ln in H by lra. unfold mb_const in H. replace (PI * f) with (f * PI) by ring.
  set (p := ln x + 1) in *. apply (Rmult_eq_compat_r p) in H.
  unfold Rdiv in H at 1. rewrite Rmult_assoc, Rinv_l in H by lra. lra.
Qed.

Lemma mb_phase v f n : forall dm x, 2 <= mb_const v f ->
  0 < dm -> 3 < / 10 ^ 10 + dm -> mb v f (/ 10 ^ 10) < 0 -> 0 < mb v f (/ 10 ^ 10 + dm) ->
  bisect_loop n (fun hb => Ok (mb v f hb)) (mb v f (/ 10 ^ 10)) (/ 10 ^ 10) dm = Ok x ->
  1 <= x /\ (mb v f x = 0 \/
    exists y, 1 <= y /\ near x y /\ opposite (mb v f x) (mb v f y)).
Proof.
  assert (Hlo : 0 < / 10 ^ 10 < 1 / 10) by lra.
  set (lo := / 10 ^ 10) in *. clearbody lo.
  induction n as [|n IH]; intros dm x HK Hdm H3 Hneg Hpos; cbn [bisect_loop]; [discriminate|].
  unfold bindR. set (xm := lo + dm / 2).
  assert (Hxm : 1 < xm) by (unfold xm; lra).
  destruct (Req_EM_T (mb v f xm) 0) as [E0|E0].
  { intro E; inversion E; subst. split; [lra|auto]. }
  destruct (Rlt_dec (Rabs (dm / 2)) (xtol + rtol * Rabs xm)) as [Hn|Hn].
  { exfalso. rewrite !Rabs_right in Hn by lra. unfold xtol, rtol, xm in Hn. lra. }
  destruct (sameb (mb v f xm) (mb v f lo)) eqn:Es.
  - apply sameb_true in Es; [|auto|lra]. assert (Hm : mb v f xm < 0) by nra.
    intro E. destruct (bisect_loop_ok (fun hb => Ok (mb v f hb)) 1 (lo + dm) n (mb v f lo) xm (dm / 2) x
      (mb v f xm) (mb v f (lo + dm))) as [H1 H2]; try assumption; try reflexivity; try lra; try nra.
    { unfold xm; lra. }
    { f_equal. f_equal. unfold xm. lra. }
    split; [lra|]. destruct H2 as [H2|(y & u & w & Hy & Hn' & Hu & Hw & Ho)].
    + left. congruence.
    + right. exists y. split; [lra|]. split; [exact Hn'|]. inversion Hu; inversion Hw; subst. exact Ho.
  - apply sameb_false_opposite in Es; [|auto|lra]. unfold opposite in Es.
    assert (Hm : 0 < mb v f xm) by nra.
    assert (H3' : 3 < xm).
    { destruct (Rle_or_lt xm 3) as [Hl|Hl]; [|exact Hl]. exfalso.
      pose proof (mb_neg_1_3 v f xm HK ltac:(lra)). lra. }
    intro E. apply (IH (dm / 2)); auto; lra.
Qed.

(** C89: for misfits from about 0.1 down to 1e-9 (the constant of the condition between
    2 and 1e8) a critical thickness is returned, and it is within the tolerance of the
    root finder of a solution of the Matthews-Blakeslee condition that is at least one
    Burgers vector; the value during growth is a quarter of it. *)
Theorem C89_critical_thickness_partial : forall gp layer lat x lf T growth c11 c12 a e11 e12 al,
  known gp layer x T c11 c12 a -> known gp lat x T e11 e12 al ->
  0 < c11 -> 0 <= c12 -> 0 < a -> 0 < al -> a <> al ->
  let v := c12 / (c11 + c12) in
  let f := Rabs (a - al) / al in
  2 <= (1 - v / 4) / (PI * f * (1 + v)) <= 10 ^ 8 ->
  exists hb r, critical_thickness gp layer lat x lf T growth =
      Ok (hb * (a / sqrt 2) / (if growth then 4 else 1)) /\
    1 <= r /\ matthews_blakeslee v f r /\ Rabs (hb - r) < 2 / 10 ^ 12 + 4 / 2 ^ 52 * hb.
Proof.
  intros gp layer lat x lf T growth c11 c12 a e11 e12 al (H1 & H2 & H3) (_ & _ & H4)
    Hc11 Hc12 Ha Hal Hne v f HK.
  unfold critical_thickness, bindR. rewrite H1, H2, H3, H4.
  assert (Hv : 0 <= v) by (unfold v; apply Rmult_le_pos; [lra|left; apply Rinv_0_lt_compat; lra]).
  assert (Ev : Rabs (c12 / (c11 + c12)) = v) by (apply Rabs_right; fold v; lra).
  assert (Ef : Rabs (a / al - 1) = f).
  { replace (a / al - 1) with ((a - al) / al) by (field; lra). unfold f, Rdiv.
    rewrite Rabs_mult, (Rabs_right (/ al)); [reflexivity|].
    apply Rle_ge. left. apply Rinv_0_lt_compat; lra. }
  rewrite Ev, Ef.
  assert (Hf : 0 < f).
  { unfold f. apply Rdiv_lt_0_compat; [apply Rabs_pos_lt; lra|lra]. }
  assert (HK' : 2 <= mb_const v f <= 10 ^ 8).
  { unfold mb_const. replace (f * PI) with (PI * f) by ring. exact HK. }
  clearbody v f. clear Ev Ef HK.
  assert (L10 : 1 < ln 10 < 3).
  { split.
    - rewrite <- (ln_exp 1). apply ln_increasing; [apply exp_pos|]. pose proof exp_le_3. lra.
    - rewrite <- (ln_exp 3). apply ln_increasing; [lra|].
      assert (1 + 5 / 4 <= exp (5 / 4)) by (pose proof (exp_ineq1_le (5 / 4)); lra).
      assert (E3 : exp 3 = exp 1 * exp 1 * exp 1).
      { rewrite <- !exp_plus. f_equal. lra. }
      assert (1 + / 5 <= exp (/ 5)) by (pose proof (exp_ineq1_le (/ 5)); lra).
      assert (E1 : exp 1 = exp (/ 5) ^ 5).
      { simpl. rewrite Rmult_1_r, <- !exp_plus. f_equal. lra. }
      set (w := exp (/ 5)) in *. clearbody w.
      assert ((12 / 10) ^ 5 <= w ^ 5) by (apply pow_incr; lra).
      rewrite E3, E1. set (z := w ^ 5) in *. clearbody z. 
      assert (22 / 10 < z) by lra. nra. }
  assert (Ehi : ln (10 ^ 10) = 10 * ln 10) by apply ln_1e10.
  assert (Elo : ln (/ 10 ^ 10) = - (10 * ln 10)) by (rewrite ln_Rinv by lra; lra).
  assert (Hneg : mb v f (/ 10 ^ 10) < 0).
  { unfold mb. rewrite Elo.
    assert (/ 10 ^ 10 / (- (10 * ln 10) + 1) < 0).
    { replace (/ 10 ^ 10 / (- (10 * ln 10) + 1)) with (- (/ 10 ^ 10 / (10 * ln 10 - 1))) by (field; lra).
      assert (0 < / 10 ^ 10 / (10 * ln 10 - 1)) by (apply Rdiv_lt_0_compat; lra). lra. }
    lra. }
  assert (Hpos : 0 < mb v f (10 ^ 10)).
  { unfold mb. rewrite Ehi.
    assert (10 ^ 8 < 10 ^ 10 / (10 * ln 10 + 1)); [|lra].
    apply (Rmult_lt_reg_r (10 * ln 10 + 1)); [lra|]. unfold Rdiv.
    rewrite Rmult_assoc, Rinv_l by lra. lra. }
  destruct (bisect_total (fun hb => Ok (mb v f hb)) (/ 10 ^ 10) (10 ^ 10)
    (mb v f (/ 10 ^ 10)) (mb v f (10 ^ 10))) as [hb Eb]; try reflexivity.
  { lra. } { pose proof bracket_100. lra. } { eauto. } { unfold opposite; nra. }
  rewrite Eb.
  assert (Hh : 1 <= hb /\ (mb v f hb = 0 \/
    exists y, 1 <= y /\ near hb y /\ opposite (mb v f hb) (mb v f y))).
  { unfold bisect, bindR in Eb.
    destruct (Req_EM_T (mb v f (/ 10 ^ 10)) 0); [lra|].
    destruct (Req_EM_T (mb v f (10 ^ 10)) 0); [lra|].
    rewrite opposite_sameb in Eb by (unfold opposite; nra).
    apply (mb_phase v f 100 (10 ^ 10 - / 10 ^ 10)); try assumption; try lra.
    replace (/ 10 ^ 10 + (10 ^ 10 - / 10 ^ 10)) with (10 ^ 10) by lra. exact Hpos. }
  destruct Hh as [Hh1 Hh].
  assert (Hr : exists r, 1 <= r /\ matthews_blakeslee v f r /\
    Rabs (hb - r) < 2 / 10 ^ 12 + 4 / 2 ^ 52 * hb).
  { destruct Hh as [Hz|(y & Hy & Hn & Ho)].
    - exists hb. split; [lra|]. split; [apply mb_zero; auto|].
      rewrite Rminus_eq_0, Rabs_R0. lra.
    - destruct (mb_root v f hb y) as (r & Hr1 & Hr2 & Hr3); auto.
      exists r. split; [lra|]. split; [exact Hr3|].
      unfold near, xtol, rtol in Hn. rewrite (Rabs_right hb) in Hn by lra. lra. }
  destruct Hr as (r & Hr1 & Hr2 & Hr3).
  exists hb, r. split; [|auto]. f_equal. destruct growth; [reflexivity|]. field.
  apply Rgt_not_eq. apply sqrt_lt_R0. lra.
Qed.

Example C89_critical_thickness_example :
  let gp : lookup := fun m p x T =>
    if String.eqb p "c11" then Ok 12 else if String.eqb p "c12" then Ok 6
    else Ok (if String.eqb m "A" then 103 / 100 else 1) in
  let v := 6 / (12 + 6) in
  let f := Rabs (103 / 100 - 1) / 1 in
  known gp "A" 0 300 12 6 (103 / 100) /\ 2 <= (1 - v / 4) / (PI * f * (1 + v)) <= 10 ^ 8.
Proof.
  cbv zeta. split; [repeat split; reflexivity|].
  rewrite Rabs_right by lra. pose proof PI_gt_3. pose proof PI_4. pose proof PI_RGT_0.
  replace (1 - 6 / (12 + 6) / 4) with (11 / 12) by lra.
  replace (PI * ((103 / 100 - 1) / 1) * (1 + 6 / (12 + 6))) with (PI * (4 / 100)) by lra.
  split.
  - apply (Rmult_le_reg_r (PI * (4 / 100))); [lra|]. unfold Rdiv at 2.
    rewrite Rmult_assoc, Rinv_l by lra. lra.
  - apply (Rmult_le_reg_r (PI * (4 / 100))); [lra|]. unfold Rdiv at 1.
    rewrite Rmult_assoc, Rinv_l by lra. lra.
Qed.

(** For a large misfit the condition has no solution, yet a thickness is returned: the
    sign change found is the pole of the function at ln hb = -1. *)
Theorem C89_no_solution_refuted : exists gp layer lat x T hc c11 c12 a e11 e12 al,
  known gp layer x T c11 c12 a /\ known gp lat x T e11 e12 al /\
  0 < c11 /\ 0 < c12 < c11 /\ 0 < al < a /\
  critical_thickness gp layer lat x None T true = Ok hc /\
  forall hb, 0 < hb -> ~ matthews_blakeslee (c12 / (c11 + c12)) (Rabs (a - al) / al) hb.
Proof.
  set (gp := (fun m p x T =>
    if String.eqb p "c11" then Ok 12 else if String.eqb p "c12" then Ok 6
    else Ok (if String.eqb m "A" then 13 / 10 else 1)) : lookup).
  assert (HP := PI_gt_3).
  assert (K : 0 < mb_const (1 / 3) (3 / 10) < 1).
  { unfold mb_const. replace (1 - 1 / 3 / 4) with (11 / 12) by lra.
    replace (3 / 10 * PI * (1 + 1 / 3)) with (PI * (4 / 10)) by lra.
    split; [apply Rdiv_lt_0_compat; lra|].
    apply (Rmult_lt_reg_r (PI * (4 / 10))); [lra|]. unfold Rdiv at 1.
    rewrite Rmult_assoc, Rinv_l by lra. lra. }
  assert (E : exists hc, critical_thickness gp "A" "S" 0 None 300 true = Ok hc).
  { unfold critical_thickness, bindR. simpl.
    replace (Rabs (6 / (12 + 6))) with (1 / 3) by (rewrite Rabs_right; lra).
    replace (Rabs (13 / 10 / 1 - 1)) with (3 / 10) by (rewrite Rabs_right; lra).
    match goal with |- context [bisect ?f ?a ?b] => set (func := f); set (lo := a); set (hi := b) end.
    assert (Hlo : lo = / 10 ^ 10) by (unfold lo; lra).
    assert (Hhi : hi = 10 ^ 10) by (unfold hi; lra).
    clearbody lo hi. subst lo hi.
    assert (L10 : 1 < ln 10).
    { rewrite <- (ln_exp 1). apply ln_increasing; [apply exp_pos|]. pose proof exp_le_3. lra. }
    assert (Ehi : ln (10 ^ 10) = 10 * ln 10).
    { apply ln_1e10. }
    assert (Elo : ln (/ 10 ^ 10) = - (10 * ln 10)) by (rewrite ln_Rinv by lra; lra).
    destruct (bisect_total func (/ 10 ^ 10) (10 ^ 10) (mb (1 / 3) (3 / 10) (/ 10 ^ 10))
      (mb (1 / 3) (3 / 10) (10 ^ 10))) as [hb ->]; try reflexivity.
    { lra. } { pose proof bracket_100. lra. } { unfold func; eauto. }
    { unfold opposite, mb. rewrite Ehi, Elo.
      assert (P1 : 0 < / 10 ^ 10 / (10 * ln 10 - 1)).
      { apply Rdiv_lt_0_compat; lra. }
      replace (/ 10 ^ 10 / (- (10 * ln 10) + 1)) with (- (/ 10 ^ 10 / (10 * ln 10 - 1))) by (field; lra).
      assert (P2 : 1 < 10 ^ 10 / (10 * ln 10 + 1)).
      { apply (Rmult_lt_reg_r (10 * ln 10 + 1)); [lra|]. unfold Rdiv.
        rewrite Rmult_assoc, Rinv_l by lra.
        assert (ln 10 < 10); [|lra].
        pose proof (exp_ineq1_le (ln 10)) as He. rewrite exp_ln in He by lra. lra. }
      set (p1 := / 10 ^ 10 / (10 * ln 10 - 1)) in *. set (p2 := 10 ^ 10 / (10 * ln 10 + 1)) in *.
      set (k := mb_const (1 / 3) (3 / 10)) in *. clearbody p1 p2 k. nra. }
    eexists; reflexivity. }
  destruct E as [hc E].
  exists gp, "A", "S", 0, 300, hc, 12, 6, (13 / 10), 12, 6, 1.
  repeat (split; [first [repeat split; reflexivity|lra|exact E]|]).
  intros hb Hb. unfold matthews_blakeslee.
  replace (6 / (12 + 6)) with (1 / 3) by lra.
  replace (Rabs (13 / 10 - 1) / 1) with (3 / 10) by (rewrite Rabs_right; lra).
  replace (PI * (3 / 10)) with (3 / 10 * PI) by ring. fold (mb_const (1 / 3) (3 / 10)).
  set (k := mb_const (1 / 3) (3 / 10)) in *. clearbody k.
  pose proof (exp_ineq1_le (ln hb)) as He. rewrite exp_ln in He by lra.
  set (l := ln hb) in *. clearbody l. intro Q.
  destruct (Rle_or_lt (l + 1) 0); nra.
Qed.

(** The composition of the substrate is ignored: the lattice constant of the substrate
    is looked up at the composition of the layer. *)
Theorem C89_lattice_fraction_refuted : exists gp layer lat x y T a b hc,
  gp lat "lattice_constant" x T = Ok a /\ gp lat "lattice_constant" y T = Ok b /\ a <> b /\
  critical_thickness gp layer lat x (Some x) T true = Ok hc /\
  critical_thickness gp layer lat x (Some y) T true = Ok hc.
Proof.
  set (gp := (fun m p x T =>
    if String.eqb p "c11" then Ok 12 else if String.eqb p "c12" then Ok 6
    else Ok (if String.eqb m "A" then 103 / 100 else 1 + x)) : lookup).
  destruct (C89_critical_thickness_partial gp "A" "S" 0 None 300 true 12 6 (103 / 100) 12 6 (1 + 0))
    as (hb & r & E & _); try (repeat split; reflexivity); try lra.
  { replace (Rabs (103 / 100 - (1 + 0)) / (1 + 0)) with (Rabs (103 / 100 - 1) / 1).
    apply C89_critical_thickness_example.
    replace (1 + 0) with 1 by lra. reflexivity. }
  exists gp, "A", "S", 0, 1, 300, (1 + 0), (1 + 1). eexists.
  split; [reflexivity|]. split; [reflexivity|]. split; [lra|]. split; exact E.
Qed.

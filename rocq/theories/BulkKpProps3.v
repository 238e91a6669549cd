(** C181, continued: materials without coupling between the bands, from the parameters to the masses. *)
From Coq Require Import Reals Lra Lia Psatz String List Bool Arith Permutation Sorted.
From Coquelicot Require Import Coquelicot.
From Verif Require Import Common PhysConst NpModel StrainModel KpModel KpProps LinAlg DetBalModel DetBalProps CrystalModel CrystalProps BulkKpModel BulkKpProps BulkKpProps2.
From Coq Require Import List.
Import ListNotations.
Open Scope R_scope.
Open Scope list_scope.

(** An unstrained layer of an isotropic material with no coupling of the valence to the conduction band. *)
Definition decoupled (m host : mat) : Prop :=
  m_a host = m_a m /\ 0 < m_a m /\ m_Ep m = 0 /\ m_g2 m = 0 /\ m_g3 m = 0 /\ 0 < m_me m /\ 0 < m_g1 m /\ 0 <= m_gap m /\ 0 <= m_so m.
(** Its four bands. *)
Definition band_c (m : mat) (k : R) : R := m_vbo m + m_gap m + kinetic k (m_me m).
Definition band_v (m : mat) (k : R) : R := m_vbo m + kinetic k (- / m_g1 m).
Definition band_so (m : mat) (k : R) : R := m_vbo m - m_so m + kinetic k (- / m_g1 m).

Lemma vnorm_sq k : vnorm k ^ 2 = vx k ^ 2 + vy k ^ 2 + vz k ^ 2.
Proof.
  unfold vnorm. rewrite <- Rsqr_pow2, Rsqr_sqrt; [unfold vdot; ring|]. unfold vdot. nra.
Qed.
Section Decoupled.
  Context (m host : mat) (D : decoupled m host).
  Lemma P0_zero k : P0 (bulk_args m host k) = 0.
  Proof. destruct D as (_ & _ & E & _). unfold P0. cbn [bulk_args i_Ep]. rewrite E. unfold Rdiv. rewrite !Rmult_0_l. apply sqrt_0. Qed.
  Lemma g2_zero k : g2' (bulk_args m host k) = 0.
  Proof. destruct D as (_ & _ & E & G & _). unfold g2'. cbn [bulk_args i_Ep i_g2]. rewrite E, G. unfold Rdiv. ring. Qed.
  Lemma g3_zero k : g3' (bulk_args m host k) = 0.
  Proof. destruct D as (_ & _ & E & _ & G & _). unfold g3'. cbn [bulk_args i_Ep i_g3]. rewrite E, G. unfold Rdiv. ring. Qed.
  Lemma strain_zero k : i_exx (bulk_args m host k) = 0 /\ i_ezz (bulk_args m host k) = 0.
  Proof. destruct D as (E & _). cbn [bulk_args i_exx i_ezz]. rewrite E. unfold Rdiv. split; ring. Qed.

  Lemma terms k :
    let i := bulk_args m host k in
    Rk i = 0%C /\ Rkc i = 0%C /\ Sk i = 0%C /\ Skc i = 0%C /\ Tk i = 0%C /\ Tkc i = 0%C /\ Uk i = 0 /\ t_q i = 0 /\
    t_cb i = band_c m (vnorm k) /\ t_hh i = band_v m (vnorm k) /\ t_lh i = band_v m (vnorm k) /\ t_so i = band_so m (vnorm k).
  Proof.
    cbv zeta. destruct (strain_zero k) as [X Z]. destruct D as (_ & Ha & EP & EG2 & EG3 & Hme & Hg1 & _).
    assert (Hc := Rgt_not_eq _ _ em_pos).
    assert (Q : t_q (bulk_args m host k) = 0).
    { unfold t_q, Qk, Qe8. rewrite g2_zero, X, Z. ring. }
    assert (P : t_p (bulk_args m host k) = cc * m_g1 m * vnorm k ^ 2).
    { unfold t_p, Pk, Pe8, g1', Ck. rewrite X, Z. cbn [bulk_args i_kx i_ky i_kz i_Ep i_g1]. rewrite EP, vnorm_sq. unfold cc, Rdiv. ring. }
    assert (V : kinetic (vnorm k) (- / m_g1 m) = - (cc * m_g1 m * vnorm k ^ 2)).
    { rewrite kinetic_cc by (apply Ropp_neq_0_compat, Rinv_neq_0_compat; lra). rewrite Rinv_opp. rewrite Rinv_inv. ring. }
    repeat split.
    - unfold Rk. rewrite g2_zero, g3_zero. apply injective_projections; simpl; ring.
    - unfold Rkc. rewrite g2_zero, g3_zero. apply injective_projections; simpl; ring.
    - unfold Sk. rewrite g3_zero. apply injective_projections; simpl; ring.
    - unfold Skc. rewrite g3_zero. apply injective_projections; simpl; ring.
    - unfold Tk. rewrite P0_zero. apply injective_projections; simpl; ring.
    - unfold Tkc. rewrite P0_zero. apply injective_projections; simpl; ring.
    - unfold Uk. rewrite P0_zero. ring.
    - exact Q.
    - unfold t_cb, Oe8, Ok_, gc, Ck, band_c. rewrite X, Z, kinetic_cc by lra. cbn [bulk_args i_kx i_ky i_kz i_Ep i_Ec0 i_me i_ac]. rewrite EP, vnorm_sq.
      replace (1 / (m_me m * electron_mass / electron_mass)) with (/ m_me m) by (field; split; lra). unfold cc, Rdiv. ring.
    - unfold t_hh, band_v. rewrite P, Q, V. cbn [bulk_args i_Ev0]. ring.
    - unfold t_lh, band_v. rewrite P, Q, V. cbn [bulk_args i_Ev0]. ring.
    - unfold t_so, band_so. rewrite P, V. cbn [bulk_args i_Ev0 i_Delta]. ring.
  Qed.
  Definition diag (k : vec) (a : nat) : R :=
    match a with
    | 0%nat | 4%nat => band_c m (vnorm k)
    | 1%nat | 5%nat | 2%nat | 6%nat => band_v m (vnorm k)
    | _ => band_so m (vnorm k)
    end.
  Definition diag_mat (k : vec) (a b : nat) : C := if Nat.eqb a b then RtoC (diag k a) else RtoC 0.
  Lemma diag_entries k a b : (a < 8)%nat -> (b < 8)%nat -> entry (transpose 8 (H_ST (bulk_args m host k))) a b = diag_mat k a b.
  Proof.
    intros Ha Hb. rewrite entry_transpose by assumption.
    destruct (terms k) as (E1 & E2 & E3 & E4 & E5 & E6 & E7 & E8 & E9 & E10 & E11 & E12).
    unfold entry, H_ST. rewrite E1, E2, E3, E4, E5, E6, E7, E8, E9, E10, E11, E12.
    do 8 (try destruct a as [|a]); try lia;
      do 8 (try destruct b as [|b]); try lia; unfold diag_mat, diag; cbn [nth Nat.eqb];
      apply injective_projections; simpl; ring.
  Qed.
  Definition levels (k : vec) : list R :=
    let so := band_so m (vnorm k) in let v := band_v m (vnorm k) in let c := band_c m (vnorm k) in [so; so; v; v; v; v; c; c].
  Lemma diag_char k (x : C) : det 8 (charmat (entry (transpose 8 (H_ST (bulk_args m host k)))) x) = clinprod (map RtoC (levels k)) x.
  Proof.
    rewrite (det_ext 8 _ (charmat (diag_mat k) x)).
    2:{ intros a b Ha Hb. unfold charmat. rewrite diag_entries by assumption. reflexivity. }
    assert (Z0 : forall a b, Nat.eqb a b = false -> charmat (diag_mat k) x a b = 0%C).
    { intros a b H. unfold charmat, diag_mat. rewrite H. ring. }
    do 8 (rewrite det_block1 by (intros; apply Z0; reflexivity)).
    unfold charmat, diag_mat, diag, levels; cbn [Nat.eqb det map clinprod]. ring.
  Qed.
  Lemma levels_sorted k : StronglySorted Rle (levels k).
  Proof.
    destruct D as (_ & _ & _ & _ & _ & Hme & Hg1 & Hgap & Hso).
    assert (0 <= kinetic (vnorm k) (m_me m)).
    { rewrite kinetic_cc by lra. pose proof cc_pos. pose proof (pow2_ge_0 (vnorm k)). apply Rmult_le_pos; [nra|]. left. apply Rinv_0_lt_compat. exact Hme. }
    assert (kinetic (vnorm k) (- / m_g1 m) <= 0).
    { rewrite kinetic_cc by (apply Ropp_neq_0_compat, Rinv_neq_0_compat; lra). rewrite Rinv_opp.
      rewrite Rinv_inv. pose proof cc_pos. pose proof (pow2_ge_0 (vnorm k)). assert (0 <= cc * vnorm k ^ 2) by nra. nra. }
    apply sorted8; unfold band_so, band_v, band_c; lra.
  Qed.
  Lemma decoupled_bands eig k : solves eig m host k -> eight_band eig (bulk_args m host k) = levels k.
  Proof.
    intro Hs. destruct (C54_bands eig (bulk_args m host k) Hs) as [P SS].
    apply sorted_perm_unique; [exact SS|apply levels_sorted|].
    destruct Hs as (Hlen & _ & Hc).
    assert (HC := fun x => eq_trans (eq_sym (diag_char k (RtoC x))) (Hc (RtoC x))). clear Hc.
    set (i := bulk_args m host k) in *. set (out := eig (transpose 8 (H_ST i))) in *.
    assert (Hn : map fst out = map (fun a => RtoC (fst a)) (map fst out)).
    { rewrite <- map_id at 1. apply map_ext_in. intros a Ha.
      apply (Permutation_in _ (Permutation_sym P)) in Ha. apply in_map_iff in Ha.
      destruct Ha as (y & <- & _). reflexivity. }
    transitivity (map (fun p => fst (fst p)) out).
    { unfold eight_band. symmetry. apply np_sort_perm. }
    apply linprod_permutation.
    { etransitivity; [apply map_length|]. exact Hlen. }
    intro x. specialize (HC x).
    rewrite Hn, <- (map_map fst RtoC), !clinprod_R, map_map in HC.
    symmetry. exact (f_equal fst HC).
  Qed.
End Decoupled.

(** ** From the parameters to the masses *)
Lemma unit_largest u : vdot u u = 1 -> 1 / 2 <= largest u.
Proof.
  intro H. unfold largest. unfold vdot in H.
  destruct (Rle_dec (1 / 2) (Rmax (Rabs (vx u)) (Rmax (Rabs (vy u)) (Rabs (vz u))))) as [|N]; [assumption|]. exfalso.
  assert (G : forall x, Rabs x < 1 / 2 -> x * x < 1 / 4).
  { intros x Hx. apply Rabs_def2 in Hx. nra. }
  pose proof (Rmax_l (Rabs (vx u)) (Rmax (Rabs (vy u)) (Rabs (vz u)))).
  pose proof (Rmax_r (Rabs (vx u)) (Rmax (Rabs (vy u)) (Rabs (vz u)))).
  pose proof (Rmax_l (Rabs (vy u)) (Rabs (vz u))). pose proof (Rmax_r (Rabs (vy u)) (Rabs (vz u))).
  pose proof (G (vx u) ltac:(lra)). pose proof (G (vy u) ltac:(lra)). pose proof (G (vz u) ltac:(lra)). lra.
Qed.
Lemma vnorm_scale c u : 0 <= c -> vdot u u = 1 -> vnorm (vscale c u) = c.
Proof.
  intros Hc H. unfold vnorm. replace (vdot (vscale c u) (vscale c u)) with (c * c * vdot u u) by (unfold vdot, vscale, vx, vy, vz; cbn [fst snd]; ring).
  rewrite H, Rmult_1_r. apply sqrt_square. exact Hc.
Qed.
(** The wave numbers of the 50 points. *)
Lemma wave_numbers a th : 0 < a -> exists d, 0 < d < 1 / 100 * (2 * PI / a) /\
  map vnorm (kvector a th (PI / 2) (2 / 10) 50 None) = map (fun i => INR i * d) (seq 0 50).
Proof.
  intro Ha. pose proof (direction_unit th (PI / 2) None I) as U. unfold kvector.
  set (u := direction th (PI / 2) None) in *.
  assert (NU : nonzero u) by (unfold nonzero; lra).
  destruct (k_max_spec a u Ha NU) as (K0 & K1 & _). pose proof (unit_largest u U) as UL.
  exists (k_max a u * (2 / 10) / 49).
  assert (HPa : 0 < 2 * PI / a) by (pose proof PI_RGT_0; apply Rdiv_lt_0_compat; lra).
  assert (KB : k_max a u <= 2 * (2 * PI / a)).
  { set (M := largest u) in *. set (K := k_max a u) in *. set (w := 2 * PI / a) in *. clearbody M K w. nra. }
  split; [lra|].
  rewrite map_map. unfold linspace. rewrite map_map. apply map_ext. intro i.
  replace (INR (50 - 1)) with 49 by (cbn; lra). pose proof (pos_INR i).
  rewrite vnorm_scale; [field| |exact U].
  apply Rmult_le_pos; [lra|]. lra.
Qed.
Lemma ln100 : 1 <= ln 100.
Proof.
  replace 1 with (ln (exp 1)) by apply ln_exp. pose proof exp_le_3. apply Rcomplements.ln_le; [apply exp_pos|lra].
Qed.
Section EndToEnd.
  Context (eig : list (list C) -> list (C * (nat -> C))) (fit : list R -> list R -> option R -> list R -> res R).
  Context (m host : mat) (D : decoupled m host) (dk : R) (Hdk : 1 / 100 <= dk).
  Context (Hs : forall k, vz k = 0 -> solves eig m host k).
  Definition iso_E (i : nat) : R := match i with 0%nat => m_vbo m - m_so m | 1%nat | 2%nat => m_vbo m | _ => m_vbo m + m_gap m end.
  Definition iso_mu (i : nat) : R := match i with 0%nat | 1%nat | 2%nat => - / m_g1 m | _ => m_me m end.
  Definition iso_band (ks : list R) (i : nat) : list R := map (fun k => iso_E i + kinetic k (iso_mu i)) ks.
  Definition iso_ks (d : R) : list R := map (fun i => INR i * d) (seq 0 50).
  Lemma iso_full th : exists d, 0 < d < 1 / 100 * (2 * PI / m_a m) /\
    KPbands_full eig m host th (PI / 2) (2 / 10) 50 None =
      iso_ks d :: [iso_band (iso_ks d) 0; iso_band (iso_ks d) 0; iso_band (iso_ks d) 1; iso_band (iso_ks d) 1;
                   iso_band (iso_ks d) 2; iso_band (iso_ks d) 2; iso_band (iso_ks d) 3; iso_band (iso_ks d) 3].
  Proof.
    assert (Ha : 0 < m_a m) by apply D. destruct (wave_numbers (m_a m) th Ha) as (d & Hd & Ed). exists d. split; [exact Hd|].
    rewrite full_rows; [|lia|].
    2:{ intros k Hk. apply (Hs k). apply (C181_in_plane _ _ _ _ _ Hk). }
    unfold iso_ks at 1. rewrite <- Ed. f_equal.
    assert (G : forall i j, (forall k, nth i (levels m k) 0 = iso_E j + kinetic (vnorm k) (iso_mu j)) ->
       map (fun k => nth i (eight_band eig (bulk_args m host k)) 0) (kvector (m_a m) th (PI / 2) (2 / 10) 50 None) = iso_band (iso_ks d) j).
    { intros i j H. unfold iso_band, iso_ks. rewrite <- Ed, map_map. apply map_ext_in. intros k Hk.
      rewrite (decoupled_bands m host D eig k) by (apply Hs, (C181_in_plane _ _ _ _ _ Hk)). apply H. }
    cbn [seq map]. rewrite (G 0%nat 0%nat), (G 1%nat 0%nat), (G 2%nat 1%nat), (G 3%nat 1%nat), (G 4%nat 2%nat), (G 5%nat 2%nat), (G 6%nat 3%nat), (G 7%nat 3%nat)
      by (intro k; reflexivity). reflexivity.
  Qed.
  Lemma iso_mu_nz i : iso_mu i <> 0.
  Proof.
    destruct D as (_ & _ & _ & _ & _ & Hme & Hg1 & _). destruct i as [|[|[|i]]]; cbn [iso_mu];
      try (apply Ropp_neq_0_compat, Rinv_neq_0_compat; lra). lra.
  Qed.
  Lemma iso_near d : 0 < d < 1 / 100 * (2 * PI / m_a m) -> exists k, In k (iso_ks d) /\ k <> 0 /\ near (m_a m) dk k.
  Proof.
    intro Hd. exists (INR 1 * d). split; [apply (in_map (fun i => INR i * d)), in_seq; lia|]. cbn [INR]. rewrite Rmult_1_l. split; [lra|].
    unfold near. pose proof ln100. set (w := 2 * PI / m_a m) in *. assert (0 < w) by lra. clearbody w.
    assert (d < dk * w) by nra. assert (d ^ 2 < (dk * w) ^ 2) by nra. assert (0 < (dk * w) ^ 2) by nra. nra.
  Qed.
  Definition iso_masses : R * R * R * R :=
    (m_me m * electron_mass, electron_mass / m_g1 m, electron_mass / m_g1 m, electron_mass / m_g1 m).
  Lemma abs_mu i : (i < 3)%nat -> Rabs (iso_mu i) * electron_mass = electron_mass / m_g1 m.
  Proof.
    intro Hi. destruct D as (_ & _ & _ & _ & _ & _ & Hg1 & _). assert (0 < / m_g1 m) by (apply Rinv_0_lt_compat; exact Hg1).
    assert (E : iso_mu i = - / m_g1 m) by (destruct i as [|[|[|i]]]; [reflexivity|reflexivity|reflexivity|lia]).
    rewrite E, Rabs_Ropp, Rabs_pos_eq by lra. unfold Rdiv. ring.
  Qed.
  Lemma iso_along th x : least_squares fit -> masses_along eig fit m host dk th = Ok x -> x = iso_masses.
  Proof.
    intros Hf H. unfold masses_along in H. destruct (iso_full th) as (d & Hd & E). rewrite E in H.
    match type of H with (let! r := ?f in _) = _ => destruct f as [r|] eqn:F end; cbn [bindR] in H; [|discriminate H].
    unfold iso_band in F.
    apply (C181_parabolas fit m host dk (iso_ks d) iso_E iso_mu) in F; auto using iso_mu_nz, iso_near; try lra; [|apply D|cbn; ring].
    destruct F as (c & hh & lh & so & -> & Ec & Eso & E1 & _).
    assert (HA : m_a host <= m_a m) by (destruct D as (EA & _); lra). destruct (E1 HA) as [Ehh Elh].
    apply ok_inj_ in H. subst x c hh lh so. unfold iso_masses. rewrite (abs_mu 0), (abs_mu 1), (abs_mu 2) by lia. cbn [iso_mu].
    rewrite (Rabs_pos_eq (m_me m)) by (destruct D as (_ & _ & _ & _ & _ & Hme & _); lra). reflexivity.
  Qed.
  Lemma iso_edges : KPbands_edges eig m host = Ok (m_vbo m + m_gap m, m_vbo m, m_vbo m, m_vbo m - m_so m).
  Proof.
    unfold KPbands_edges. rewrite <- bulk_edge, (decoupled_bands m host D eig) by (apply Hs; reflexivity).
    unfold levels, band_c, band_v, band_so.
    assert (Z : vnorm (0, 0, 0) = 0).
    { unfold vnorm, vdot, vx, vy, vz. cbn [fst snd]. replace (0 * 0 + 0 * 0 + 0 * 0) with 0 by ring. apply sqrt_0. }
    rewrite Z, !kinetic_0, !Rplus_0_r. destruct (Rlt_dec (m_a m) (m_a host)) as [L|L]; [|reflexivity].
    destruct D as (EA & _). lra.
  Qed.
End EndToEnd.
(** For such a material the whole calculation gives the parameters back: the edges are the offsets and
    gaps, the conduction mass is the one given and the hole masses are those of the Luttinger
    parameter.  The eigenvalue solver and the fit are any that do their work. *)
Theorem C181_isotropic : forall eig fit m host points dk e r, decoupled m host -> least_squares fit -> 1 / 100 <= dk ->
  (forall k, vz k = 0 -> solves eig m host k) ->
  kp8x8_bulk eig fit m host points dk = Ok (e, r) ->
  e = (m_vbo m + m_gap m, m_vbo m, m_vbo m, m_vbo m - m_so m) /\
  r = (m_me m * electron_mass, electron_mass / m_g1 m, electron_mass / m_g1 m, electron_mass / m_g1 m).
Proof.
  intros eig fit m host points dk e r D Hf Hdk Hs H. apply C181_bulk in H as [H1 H2].
  rewrite (iso_edges eig m host D Hs) in H1. apply ok_inj_ in H1. split; [symmetry; exact H1|].
  destruct (proj2 (C181_average eig fit m host points dk) r H2) as (Hp & xs & Lx & Hx & Hm).
  assert (HX : forall x, In x xs -> x = iso_masses m).
  { intros x Hin. apply (In_nth _ _ r) in Hin as (i & Hi & <-). rewrite Lx in Hi. specialize (Hx i Hi).
    apply (iso_along eig fit m host D dk Hdk Hs _ _ Hf) in Hx. exact Hx. }
  assert (G : forall pr, In pr [p1; p2; p3; p4] -> pr r = pr (iso_masses m)).
  { intros pr Hpr. destruct (Hm pr Hpr) as [_ B]. specialize (B (pr (iso_masses m)) (pr (iso_masses m))).
    assert (pr (iso_masses m) <= pr r <= pr (iso_masses m)); [|lra]. apply B. intros x Hin. rewrite (HX x Hin). lra. }
  pose proof (G p1 ltac:(cbn; tauto)) as G1. pose proof (G p2 ltac:(cbn; tauto)) as G2. pose proof (G p3 ltac:(cbn; tauto)) as G3. pose proof (G p4 ltac:(cbn; tauto)) as G4.
  destruct r as [[[r1 r2] r3] r4]. unfold p1, p2, p3, p4, iso_masses in G1, G2, G3, G4. cbn [fst snd] in G1, G2, G3, G4. subst. reflexivity.
Qed.

(** Both oracles exist.  The fit: accept the first guess if it is perfect. *)
Definition exact_fit (ks es : list R) (p0 : option R) (ss : list R) : res R :=
  match p0 with
  | Some mu => if Req_EM_T mu 0 then Err RuntimeError else if Req_EM_T (misfit ks es ss mu) 0 then Ok mu else Err RuntimeError
  | None => Err RuntimeError
  end.
Lemma exact_fit_ls : least_squares exact_fit.
Proof.
  intros ks es p0 ss mu H. unfold exact_fit in H. destruct p0 as [mu0|]; [|discriminate H].
  destruct (Req_EM_T mu0 0) as [|N]; [discriminate H|]. destruct (Req_EM_T (misfit ks es ss mu0) 0) as [Z|]; [|discriminate H].
  apply ok_inj_ in H. subst mu0. split; [exact N|]. intros mu' _. rewrite Z. apply (fold_sq_nonneg (fun p => (kinetic (fst p) mu' - fst (snd p)) / snd (snd p))).
Qed.
(** The eigenvalues of diagonal matrices. *)
Definition diag_eig (M : list (list C)) : list (C * (nat -> C)) := map (fun i => (entry M i i, unit_vec i)) (seq 0 8).
Lemma diag_eig_solves m host k : decoupled m host -> solves diag_eig m host k.
Proof.
  intro D. unfold solves, eig_spec, diag_eig. split; [reflexivity|]. split.
  - apply Forall_map, Forall_forall. intros i Hi. apply in_seq in Hi. cbn [fst snd]. split.
    + exists i. split; [lia|]. unfold unit_vec. rewrite Nat.eqb_refl. intro Z. apply (f_equal fst) in Z. simpl in Z. lra.
    + intros a Ha. rewrite (diag_entries m host D k i i) by lia.
      transitivity (csum 8 (fun j => diag_mat m k a j * unit_vec i j)%C).
      { apply csum_ext. intros j Hj. rewrite (diag_entries m host D k) by lia. reflexivity. }
      unfold diag_mat, diag. set (c := band_c m (vnorm k)). set (v := band_v m (vnorm k)). set (so := band_so m (vnorm k)). clearbody c v so.
      assert (Hi8 : (i < 8)%nat) by lia. clear Hi. unfold unit_vec.
      do 8 (try destruct i as [|i]); try lia; do 8 (try destruct a as [|a]); try lia; cbn [csum Nat.eqb]; apply injective_projections; simpl; ring.
  - intro x. rewrite (diag_char m host D k). cbn [seq map fst]. rewrite !(diag_entries m host D k) by lia.
    unfold diag_mat, diag, levels. cbn [Nat.eqb map clinprod]. ring.
Qed.
Lemma exact_band a0 dk ks E mu : mu <> 0 -> nth 0 ks 1 = 0 -> guess ks (map (fun k => E + kinetic k mu) ks) = Ok (Some mu) ->
  fit_band exact_fit a0 dk ks (map (fun k => E + kinetic k mu) ks) = Ok mu.
Proof.
  intros Hmu H0 G. unfold fit_band. rewrite G. cbn [bindR]. unfold exact_fit.
  destruct (Req_EM_T mu 0); [contradiction|]. rewrite kept_map, map_map.
  replace (map (fun x => E + kinetic x mu - nth 0 (map (fun k => E + kinetic k mu) ks) 0) (kept a0 dk ks ks))
    with (map (fun k => kinetic k mu) (kept a0 dk ks ks)).
  2:{ apply map_ext. intro x. destruct ks as [|y r]; [cbn in H0; lra|]. cbn [nth] in H0. subst y. cbn [map nth]. rewrite kinetic_0. ring. }
  rewrite misfit_map.
  match goal with |- (if Req_EM_T ?x 0 then _ else _) = _ => assert (Z : x = 0); [|destruct (Req_EM_T x 0); [reflexivity|contradiction]] end.
  generalize (kept a0 dk ks ks). induction l as [|k r IH]; [reflexivity|]. cbn [map fold_right]. rewrite IH. unfold Rdiv. ring.
Qed.
(** A material of this kind, with all the hypotheses of the theorem and an answer. *)
Definition iso_mat : mat := {| m_av := -1; m_ac := -6; m_b := -2; m_c11 := 10; m_c12 := 5; m_a := 5;
  m_so := 1; m_gap := 20; m_vbo := -1/2; m_g1 := 7; m_g2 := 0; m_g3 := 0; m_me := 1/20; m_Ep := 0 |}.
Example C181_isotropic_ex : decoupled iso_mat iso_mat /\ least_squares exact_fit /\ (forall k, solves diag_eig iso_mat iso_mat k) /\
  kp8x8_bulk diag_eig exact_fit iso_mat iso_mat 10 (26 / 1000) =
    Ok ((39 / 2, - (1 / 2), - (1 / 2), - (3 / 2)), (electron_mass / 20, electron_mass / 7, electron_mass / 7, electron_mass / 7)).
Proof.
  assert (D : decoupled iso_mat iso_mat) by (unfold decoupled; cbn; lra).
  assert (S : forall k, solves diag_eig iso_mat iso_mat k) by (intro k; apply diag_eig_solves; exact D).
  split; [exact D|]. split; [apply exact_fit_ls|]. split; [exact S|].
  assert (A : forall th, exists x, masses_along diag_eig exact_fit iso_mat iso_mat (26 / 1000) th = Ok x).
  { intro th. destruct (iso_full diag_eig iso_mat iso_mat D (fun k _ => S k) th) as (d & Hd & E).
    unfold masses_along. rewrite E. unfold fit_effective_masses. cbn [every_other fit_all].
    assert (B : forall i, fit_band exact_fit (m_a iso_mat) (26 / 1000) (iso_ks d) (iso_band iso_mat (iso_ks d) i) = Ok (iso_mu iso_mat i)).
    { intro i. unfold iso_band. apply exact_band; [apply (iso_mu_nz iso_mat iso_mat D)|cbn; ring|].
      assert (EK : iso_ks d = 0 :: d :: 2 * d :: map (fun i => INR i * d) (seq 3 47)).
      { unfold iso_ks. change (seq 0 50) with (0 :: 1 :: 2 :: seq 3 47)%nat. cbn [map INR]. repeat (apply (f_equal2 (@cons R)); [ring|]). reflexivity. }
      rewrite EK. apply C181_guess; [lra|]. apply (iso_mu_nz iso_mat iso_mat D). }
    rewrite (B 0%nat), (B 1%nat), (B 2%nat), (B 3%nat). cbn [bindR].
    destruct (Rlt_dec (m_a iso_mat) (m_a iso_mat)); [lra|]. cbn [bindR map rev app]. eexists. reflexivity. }
  assert (SA : forall ts s, exists x, sum_along diag_eig exact_fit iso_mat iso_mat (26 / 1000) s ts = Ok x).
  { induction ts as [|t ts IH]; intro s; [eexists; reflexivity|]. cbn [sum_along]. destruct (A t) as (x & ->). cbn [bindR]. apply IH. }
  assert (R : exists e r, kp8x8_bulk diag_eig exact_fit iso_mat iso_mat 10 (26 / 1000) = Ok (e, r)).
  { unfold kp8x8_bulk, average_inplane. destruct (SA (linspace 0 (PI / 4) 10) (0, 0, 0, 0)) as (x & ->). cbn [bindR].
    destruct x as [[[a b] c] d]. cbn [bindR]. rewrite (iso_edges diag_eig iso_mat iso_mat D (fun k _ => S k)). cbn [bindR]. do 2 eexists. reflexivity. }
  destruct R as (e & r & R). rewrite R.
  assert (Hd : 1 / 100 <= 26 / 1000) by lra.
  destruct (C181_isotropic _ _ _ _ _ _ _ _ D exact_fit_ls Hd (fun k _ => S k) R) as [-> ->].
  cbn [iso_mat m_vbo m_gap m_so m_me m_g1].
  assert (Q : 1 / 20 * electron_mass = electron_mass / 20) by field. rewrite Q.
  apply (f_equal Ok). repeat apply (f_equal2 (@pair _ _)); lra.
Qed.

(** The fit in closed form, for any data with positive deviations. *)
Definition tot (f : R -> R -> R -> R) (ks es ss : list R) : R :=
  fold_right Rplus 0 (map (fun p => f (fst p) (fst (snd p)) (snd (snd p))) (combine ks (combine es ss))).
Definition closed_fit (ks es : list R) (p0 : option R) (ss : list R) : res R :=
  let A := tot (fun k _ s => k ^ 4 / s ^ 2) ks es ss in
  let B := tot (fun k e s => k ^ 2 * e / s ^ 2) ks es ss in
  if Forall_dec (fun s => 0 < s) (fun s => Rlt_dec 0 s) ss then
    if Rlt_dec 0 A then if Req_EM_T B 0 then Err RuntimeError else Ok (cc * A / B) else Err RuntimeError
  else Err RuntimeError.
Lemma tot_misfit ks : forall es ss mu, mu <> 0 -> Forall (fun s => 0 < s) ss ->
  misfit ks es ss mu = cc ^ 2 * tot (fun k _ s => k ^ 4 / s ^ 2) ks es ss * (/ mu) ^ 2 -
    2 * (cc * tot (fun k e s => k ^ 2 * e / s ^ 2) ks es ss) * / mu + tot (fun _ e s => (e / s) ^ 2) ks es ss.
Proof.
  unfold misfit, tot. induction ks as [|k r IH]; intros es ss mu Hm Hs; [cbn; ring|].
  destruct es as [|e es]; [cbn; ring|]. destruct ss as [|s ss]; [cbn; ring|]. cbn [combine map fold_right fst snd].
  inversion Hs; subst. rewrite (IH es ss mu Hm) by assumption. rewrite kinetic_cc by exact Hm. field. split; lra.
Qed.
Lemma closed_fit_ls : least_squares closed_fit.
Proof.
  intros ks es p0 ss mu H. unfold closed_fit in H. pose proof cc_pos.
  destruct (Forall_dec _ _ ss) as [Hs|]; [|discriminate H]. destruct (Rlt_dec 0 _) as [HA|]; [|discriminate H]. destruct (Req_EM_T _ 0) as [|HB]; [discriminate H|].
  apply ok_inj_ in H. set (A := tot (fun k _ s => k ^ 4 / s ^ 2) ks es ss) in *. set (B := tot (fun k e s => k ^ 2 * e / s ^ 2) ks es ss) in *.
  assert (Hm : mu <> 0).
  { subst mu. apply Rmult_integral_contrapositive. split; [apply Rmult_integral_contrapositive; split; lra|]. apply Rinv_neq_0_compat. exact HB. }
  split; [exact Hm|]. intros mu' Hm'. rewrite !tot_misfit by assumption. fold A B.
  assert (EI : / mu = B / (cc * A)). { subst mu. field. repeat split; lra. }
  rewrite EI.
  apply Rplus_le_compat_r. set (v := / mu'). clearbody v.
  assert (0 <= A * (cc * v - B / A) ^ 2) by (apply Rmult_le_pos; [lra|apply pow2_ge_0]).
  replace (cc ^ 2 * A * v ^ 2 - 2 * (cc * B) * v) with
    (A * (cc * v - B / A) ^ 2 + (cc ^ 2 * A * (B / (cc * A)) ^ 2 - 2 * (cc * B) * (B / (cc * A)))) by (field; split; lra).
  lra.
Qed.
(** A band whose mass doubles away from the centre: both fits have an answer. *)
Example C181_weights_ex : let ks := [0; 1; 2] in let band := [0; 0 + kinetic 1 1; 0 + kinetic 2 2] in
  near 1 1 2 /\ (exists mu, fit_band closed_fit 1 1 ks band = Ok mu) /\ (exists nu, closed_fit ks (map (fun e => e - 0) band) None [1; 1; 1] = Ok nu).
Proof.
  cbv zeta. pose proof cc_pos as Hc.
  assert (Hn : forall k, 0 <= k <= 2 -> near 1 1 k).
  { intros k Hk. unfold near. pose proof ln100. pose proof PI_RGT_0 as P. pose proof PI2_3_2 as P3.
    assert (9 <= (1 * (2 * PI / 1)) ^ 2) by nra. nra. }
  assert (Hw : forall k, 0 <= k <= 2 -> 1 / 100 < weigth 1 1 k) by (intros; apply near_weigth; auto; lra).
  assert (K : forall s : R -> R, (forall k, 0 < s k) -> exists mu, forall p0, closed_fit [0; 1; 2] [0; kinetic 1 1; kinetic 2 2] p0 [s 0; s 1; s 2] = Ok mu).
  { intros s Hs. unfold closed_fit. eexists. intro p0.
    destruct (Forall_dec _ _ _) as [_|N]; [|exfalso; apply N; repeat constructor; apply Hs].
    pose proof (Hs 0) as S0. pose proof (Hs 1) as S1. pose proof (Hs 2) as S2.
    destruct (Rlt_dec 0 _) as [_|N].
    2:{ exfalso. apply N. unfold tot. cbn [combine map fold_right fst snd].
        assert (0 < 1 ^ 4 / s 1 ^ 2) by (apply Rdiv_lt_0_compat; [lra|apply pow_lt; exact S1]).
        assert (0 < 2 ^ 4 / s 2 ^ 2) by (apply Rdiv_lt_0_compat; [lra|apply pow_lt; exact S2]).
        replace (0 ^ 4 / s 0 ^ 2) with 0 by (unfold Rdiv; ring). lra. }
    destruct (Req_EM_T _ 0) as [Z|_]; [|reflexivity]. exfalso. revert Z. unfold tot. cbn [combine map fold_right fst snd].
    rewrite !kinetic_cc by lra.
    assert (0 < 1 ^ 2 * (cc * 1 ^ 2 * / 1) / s 1 ^ 2) by (apply Rdiv_lt_0_compat; [lra|apply pow_lt; exact S1]).
    assert (0 < 2 ^ 2 * (cc * 2 ^ 2 * / 2) / s 2 ^ 2) by (apply Rdiv_lt_0_compat; [lra|apply pow_lt; exact S2]).
    replace (0 ^ 2 * 0 / s 0 ^ 2) with 0 by (unfold Rdiv; ring). lra. }
  split; [apply Hn; lra|]. split.
  - unfold fit_band, guess. cbn [bindR]. unfold kept. cbn [combine filter fst].
    destruct (Rlt_dec (1 / 100) (weigth 1 1 0)) as [_|N]; [|exfalso; apply N, Hw; lra].
    destruct (Rlt_dec (1 / 100) (weigth 1 1 1)) as [_|N]; [|exfalso; apply N, Hw; lra].
    destruct (Rlt_dec (1 / 100) (weigth 1 1 2)) as [_|N]; [|exfalso; apply N, Hw; lra].
    cbn [map snd nth]. destruct (K (weigth 1 1) (weigth_pos 1 1)) as (mu & Hmu). exists mu.
    replace (0 - 0) with 0 by ring. replace (0 + kinetic 1 1 - 0) with (kinetic 1 1) by ring. replace (0 + kinetic 2 2 - 0) with (kinetic 2 2) by ring. apply Hmu.
  - destruct (K (fun _ => 1) (fun _ => Rlt_0_1)) as (nu & Hnu). exists nu. cbn [map].
    replace (0 - 0) with 0 by ring. replace (0 + kinetic 1 1 - 0) with (kinetic 1 1) by ring. replace (0 + kinetic 2 2 - 0) with (kinetic 2 2) by ring. apply Hnu.
Qed.
(** kp_bands with a mass in the direction L. *)
Example C181_point_ex : (forall k, length (diag_eig (transpose 8 (H_ST (bulk_args iso_mat iso_mat k)))) = 8%nat) /\
  exists e ms, kp_bands diag_eig iso_mat iso_mat 1 2 0 true "L" = Ok (e, Some ms) /\ p1 e = 39 / 2 /\ fst (fst (fst ms)) <> None.
Proof.
  assert (D : decoupled iso_mat iso_mat) by (unfold decoupled; cbn; lra).
  assert (S : forall k, solves diag_eig iso_mat iso_mat k) by (intro k; apply diag_eig_solves; exact D).
  split; [reflexivity|].
  unfold kp_bands, point_masses, fit_point. change (critical_point (m_a iso_mat) "L") with (Ok (vscale (PI / 5) (1, 1, 1))). cbn [bindR].
  rewrite !(decoupled_bands iso_mat iso_mat D diag_eig) by apply S.
  set (f := vadd _ _). assert (NZ : vnorm f <> 0).
  { apply vnorm_nonzero. unfold nonzero, f, vdot, vadd, vscale, vsub, vx, vy, vz. cbn [fst snd]. pose proof PI_RGT_0. assert (0 < PI * PI) by nra. nra. }
  assert (Z : vnorm (0, 0, 0) = 0).
  { unfold vnorm, vdot, vx, vy, vz. cbn [fst snd]. replace (0 * 0 + 0 * 0 + 0 * 0) with 0 by ring. apply sqrt_0. }
  unfold levels, named. cbn [combine map fst snd].
  destruct (Rlt_dec (m_a iso_mat) (m_a iso_mat)); [lra|]. cbn [bindR]. do 2 eexists. split; [reflexivity|]. cbn [p1 fst snd].
  split; [unfold p1; cbn [fst]; unfold band_c; rewrite Z, kinetic_0; cbn [iso_mat m_vbo m_gap]; lra|].
  destruct (point_mass_spec (vnorm f) (band_c iso_mat (vnorm f)) (band_c iso_mat (vnorm (0, 0, 0))) NZ) as [_ P].
  destruct P as (mu & -> & _).
  - unfold band_c. rewrite Z, kinetic_0. intro Q. assert (Q' : kinetic (vnorm f) (m_me iso_mat) = 0) by lra.
    rewrite kinetic_cc in Q' by (cbn; lra). pose proof cc_pos.
    assert (0 < vnorm f ^ 2) by (rewrite <- Rsqr_pow2; apply Rlt_0_sqr; exact NZ). cbn [iso_mat m_me] in Q'.
    assert (0 < / (1 / 20)) by (apply Rinv_0_lt_compat; lra). assert (0 < cc * vnorm f ^ 2) by (apply Rmult_lt_0_compat; assumption). nra.
  - cbn [option_map]. discriminate.
Qed.

(** C181, continued: the bands along a line, kp_bands and the in-plane averages. *)
From Coq Require Import Reals Lra Lia Psatz String List Bool Arith Permutation Sorted.
From Coquelicot Require Import Coquelicot.
From Verif Require Import Common PhysConst NpModel StrainModel KpModel KpProps LinAlg DetBalModel DetBalProps CrystalModel CrystalProps BulkKpModel BulkKpProps.
From Coq Require Import List.
Import ListNotations.
Open Scope R_scope.
Open Scope list_scope.

(** The solver does its work on the Hamiltonian at k. *)
Definition solves (eig : list (list C) -> list (C * (nat -> C))) (m host : mat) (k : vec) : Prop :=
  eig_spec 8 (entry (transpose 8 (H_ST (bulk_args m host k)))) (eig (transpose 8 (H_ST (bulk_args m host k)))).

Lemma bulk_edge m host : bulk_args m host (0, 0, 0) = edge_args m host.
Proof. reflexivity. Qed.
Lemma eight_len eig i : length (eig (transpose 8 (H_ST i))) = 8%nat -> length (eight_band eig i) = 8%nat.
Proof. intro H. unfold eight_band. rewrite <- (Permutation_length (np_sort_perm _)), map_length. exact H. Qed.
Lemma fold_min_const n l : Forall (fun x => x = n) l -> fold_left Nat.min l n = n.
Proof. induction 1 as [|x r -> _ IH]; cbn [fold_left]; [reflexivity|]. rewrite Nat.min_id. exact IH. Qed.
Lemma zip_star_square (rows : list (list R)) n : rows <> [] -> Forall (fun r => length r = n) rows ->
  zip_star rows = map (fun i => map (fun row => nth i row 0) rows) (seq 0 n).
Proof.
  intros N H. destruct rows as [|r rs]; [contradiction|]. unfold zip_star. inversion H as [|a b Hr Hrs]; subst a b.
  rewrite Hr, fold_min_const; [reflexivity|]. apply Forall_map. exact Hrs.
Qed.
Lemma nth_map_ {A B} (f : A -> B) l i d d' : (i < length l)%nat -> nth i (map f l) d = f (nth i l d').
Proof. intro H. rewrite (nth_indep _ d (f d')) by (rewrite map_length; exact H). apply map_nth. Qed.

Section Full.
  Context (eig : list (list C) -> list (C * (nat -> C))) (m host : mat) (t p fraction : R) (points : nat) (vin : option vec).
  Let allk := kvector (m_a m) t p fraction points vin.
  Lemma full_rows : (2 <= points)%nat -> (forall k, In k allk -> length (eig (transpose 8 (H_ST (bulk_args m host k)))) = 8%nat) ->
    KPbands_full eig m host t p fraction points vin =
      map vnorm allk :: map (fun i => map (fun k => nth i (eight_band eig (bulk_args m host k)) 0) allk) (seq 0 8).
  Proof.
    intros Hp He. unfold KPbands_full. fold allk. f_equal.
    rewrite (zip_star_square _ 8).
    - apply map_ext. intro i. rewrite map_map. reflexivity.
    - intro Z. apply map_eq_nil in Z. destruct (C164_line (m_a m) t p fraction points vin Hp) as (L & _). fold allk in L. rewrite Z in L. cbn in L. lia.
    - apply Forall_map, Forall_forall. intros k Hk. apply eight_len, He, Hk.
  Qed.
End Full.

(** ** The bands along a line *)
(** Nine rows: the wave numbers and eight bands.  Each wave number is that of a point of the first
    zone, starting from its centre; the bands there are the whole spectrum in increasing order; those
    at the centre are the edges that the other mode returns. *)
Theorem C181_bands : forall eig m host t p fraction points vin, 0 < m_a m -> 0 <= fraction <= 1 -> (2 <= points)%nat ->
  match vin with Some v => nonzero v | None => True end ->
  (forall k, In k (kvector (m_a m) t p fraction points vin) -> solves eig m host k) ->
  let out := KPbands_full eig m host t p fraction points vin in
  let column j := map (fun i => nth j (nth (S i) out []) 0) (seq 0 8) in
  length out = 9%nat /\ Forall (fun row => length row = points) out /\
  nth 0 (nth 0 out []) 1 = 0 /\
  (forall j, (j < points)%nat -> exists k, in_zone (m_a m) k /\ nth j (nth 0 out []) 0 = vnorm k /\
     StronglySorted Rle (column j) /\ Permutation (map RtoC (column j)) (map fst (eig (transpose 8 (H_ST (bulk_args m host k)))))) /\
  named m host (column 0%nat) = KPbands_edges eig m host.
Proof.
  intros eig m host t p fraction points vin Ha Hf Hp Hv Hs out column.
  destruct (C164_line (m_a m) t p fraction points vin Hp) as (L & L0 & _).
  destruct (C164_zone (m_a m) t p fraction points vin Ha Hf Hv) as [Z _].
  set (allk := kvector (m_a m) t p fraction points vin) in *.
  assert (E : out = map vnorm allk :: map (fun i => map (fun k => nth i (eight_band eig (bulk_args m host k)) 0) allk) (seq 0 8)).
  { apply full_rows; [exact Hp|]. intros k Hk. apply (Hs k Hk). }
  assert (CJ : forall j, (j < points)%nat -> column j = eight_band eig (bulk_args m host (nth j allk (1, 1, 1)))).
  { intros j Hj. assert (Hin : In (nth j allk (1, 1, 1)) allk) by (apply nth_In; lia).
    assert (L8 := eight_len eig (bulk_args m host (nth j allk (1, 1, 1))) (proj1 (Hs _ Hin))).
    apply (nth_ext _ _ 0 0).
    - unfold column. rewrite map_length, seq_length, L8. reflexivity.
    - intros i Hi. unfold column in Hi. rewrite map_length, seq_length in Hi. unfold column.
      rewrite (nth_map_ _ _ _ 0 0%nat) by (rewrite seq_length; exact Hi). rewrite seq_nth by exact Hi. cbn [Nat.add].
      rewrite E. cbn [nth]. rewrite (nth_map_ _ _ _ [] 0%nat) by (rewrite seq_length; exact Hi). rewrite seq_nth by exact Hi. cbn [Nat.add].
      rewrite (nth_map_ (fun k => nth i (eight_band eig (bulk_args m host k)) 0) allk j 0 (1, 1, 1)) by (rewrite L; lia). reflexivity. }
  split; [rewrite E; cbn [length]; rewrite map_length, seq_length; reflexivity|].
  split. { rewrite E. constructor; [rewrite map_length; exact L|]. apply Forall_map, Forall_forall. intros i _. rewrite map_length. exact L. }
  split. { rewrite E. change (nth 0 (map vnorm allk) 1 = 0). rewrite (nth_map_ vnorm allk 0 1 (1, 1, 1)) by (rewrite L; lia). rewrite L0. unfold vnorm, vdot, vx, vy, vz. cbn [fst snd].
    replace (0 * 0 + 0 * 0 + 0 * 0) with 0 by ring. apply sqrt_0. }
  split.
  - intros j Hj. assert (Hin : In (nth j allk (1, 1, 1)) allk) by (apply nth_In; lia).
    exists (nth j allk (1, 1, 1)). split; [apply Z; exact Hin|]. split.
    + rewrite E. apply (nth_map_ vnorm allk j 0 (1, 1, 1)). rewrite L. exact Hj.
    + rewrite (CJ j Hj). destruct (C54_bands eig _ (Hs _ Hin)) as [P S]. split; assumption.
  - rewrite CJ by lia. rewrite L0. reflexivity.
Qed.

(** ** kp_bands *)
(** With kz = 0 the energies are the band edges of the other function; the arguments kx and ky are
    without effect (they are overwritten at lines 172-173). *)
Theorem C181_kp_bands : forall eig m host kx ky dir,
  kp_bands eig m host kx ky 0 false dir = (let! e := KPbands_edges eig m host in Ok (e, None)).
Proof. reflexivity. Qed.
Theorem C181_wave_vector_refuted : forall eig m host kx ky kz fit dir, kp_bands eig m host kx ky kz fit dir = kp_bands eig m host 0 0 kz fit dir.
Proof. reflexivity. Qed.

(** The mass from one point of the line to the zone boundary: the parabola with that mass passes through
    both energies; a flat band has none. *)
Lemma point_mass_spec k fp o : k <> 0 ->
  (fp = o -> point_mass k fp o = None) /\
  (fp <> o -> exists mu, point_mass k fp o = Some mu /\ mu <> 0 /\ effective_mass_energy k mu o = fp /\ effective_mass_energy 0 mu o = o /\
     (0 < mu <-> o < fp)).
Proof.
  intro Hk. unfold point_mass, fdiv_. pose proof hbar_pos. split; intro H0.
  - destruct (Req_EM_T (2 * (fp - o)) 0) as [|N]; [reflexivity|]. exfalso. apply N. subst. ring.
  - destruct (Req_EM_T (2 * (fp - o)) 0) as [Z|N]; [exfalso; apply H0; lra|]. cbn [option_map].
    assert (Hh : 0 < hbar ^ 2) by (apply pow_lt; assumption).
    assert (Hk2 : 0 < k ^ 2) by (rewrite <- Rsqr_pow2; apply Rlt_0_sqr; exact Hk).
    eexists. split; [reflexivity|]. unfold effective_mass_energy.
    assert (NZ : hbar ^ 2 / (2 * (fp - o)) * k ^ 2 <> 0).
    { apply Rmult_integral_contrapositive. split; [|lra]. apply Rmult_integral_contrapositive. split; [lra|]. apply Rinv_neq_0_compat. exact N. }
    split; [exact NZ|]. split; [field; repeat split; lra|]. split; [unfold Rdiv; ring|].
    assert (EQ : hbar ^ 2 / (2 * (fp - o)) * k ^ 2 = hbar ^ 2 * k ^ 2 / 2 * / (fp - o)) by (field; lra).
    rewrite EQ. assert (Hp : 0 < hbar ^ 2 * k ^ 2 / 2) by nra. set (w := hbar ^ 2 * k ^ 2 / 2) in *. clearbody w.
    split; intro G.
    + destruct (Rlt_dec o fp) as [|N']; [assumption|]. exfalso.
      assert (/ (fp - o) < 0) by (apply Rinv_lt_0_compat; lra). nra.
    + apply Rmult_lt_0_compat; [exact Hp|]. apply Rinv_0_lt_compat. lra.
Qed.
Lemma fit_point_spec m dir f : 0 < m_a m -> fit_point m dir = Ok f ->
  exists target, critical_point (m_a m) dir = Ok target /\ f = vscale (5 / 100) target.
Proof.
  intros Ha H. unfold fit_point in H. destruct (critical_point (m_a m) dir) as [v|] eqn:E; cbn [bindR] in H; [|discriminate H].
  exists v. split; [reflexivity|]. apply ok_inj_ in H. subst f. unfold vadd, vscale, vsub, vx, vy, vz. cbn [fst snd]. apply vec_eq; ring.
Qed.
Lemma vnorm_nonzero v : nonzero v -> vnorm v <> 0.
Proof. intro H. unfold vnorm. apply Rgt_not_eq, sqrt_lt_R0. exact H. Qed.
Lemma map_named {A B} (g : A -> B) m host l r : named m host l = Ok r ->
  named m host (map g l) = Ok (let '(a, b, c, d) := r in (g a, g b, g c, g d)).
Proof.
  intro H. do 8 (destruct l as [|? l]; [discriminate H|]). destruct l; [|discriminate H].
  unfold named in *. cbn [map]. destruct (Rlt_dec (m_a m) (m_a host)); apply ok_inj_ in H; subst r; reflexivity.
Qed.
(** Every mass is named with the band it belongs to: the masses are the magnitudes for which parabolas
    from the energies at the zone centre pass through the energies at the fit point. *)
Theorem C181_point_masses : forall eig m host kx ky kz dir e ms, 0 < m_a m ->
  (forall k, length (eig (transpose 8 (H_ST (bulk_args m host k)))) = 8%nat) -> dir <> "Gamma"%string ->
  kp_bands eig m host kx ky kz true dir = Ok (e, Some ms) ->
  exists target o f, critical_point (m_a m) dir = Ok target /\
    named m host (eight_band eig (bulk_args m host (0, 0, 0))) = Ok o /\
    named m host (eight_band eig (bulk_args m host (vscale (5 / 100) target))) = Ok f /\
    let k := vnorm (vscale (5 / 100) target) in
    let fits E0 E1 (mass : option R) := (E1 = E0 -> mass = None) /\
      (E1 <> E0 -> exists mu, mass = Some mu /\ 0 < mu /\
         (E0 < E1 -> effective_mass_energy k mu E0 = E1) /\ (E1 < E0 -> effective_mass_energy k (- mu) E0 = E1)) in
    let '(oc, ohh, olh, oso) := o in let '(fc, fhh, flh, fso) := f in let '(mc, mhh, mlh, mso) := ms in
    fits oc fc mc /\ fits ohh fhh mhh /\ fits olh flh mlh /\ fits oso fso mso.
Proof.
  intros eig m host kx ky kz dir e ms Ha H8 Hdir H. unfold kp_bands in H.
  destruct (named m host (eight_band eig (bulk_args m host (0, 0, kz)))) as [e0|]; cbn [bindR] in H; [|discriminate H].
  unfold point_masses in H. destruct (fit_point m dir) as [fv|] eqn:Ef; cbn [bindR] in H; [|discriminate H].
  destruct (fit_point_spec m dir fv Ha Ef) as (target & Et & ->).
  assert (NZ : nonzero (vscale (5 / 100) target)).
  { unfold critical_point in Et. pose proof PI_RGT_0 as HP. assert (HQ : 0 < PI / m_a m) by (apply Rdiv_lt_0_compat; assumption).
    destruct (String.eqb_spec dir "Gamma"); [contradiction|].
    repeat match type of Et with (if ?c then _ else _) = _ => destruct c end; try discriminate Et; apply ok_inj_ in Et; subst target;
      unfold nonzero, vdot, vscale, vx, vy, vz; cbn [fst snd]; set (w := PI / m_a m) in *; clearbody w; assert (0 < w * w) by (apply Rmult_lt_0_compat; assumption); nra. }
  exists target.
  pose proof (vnorm_nonzero _ NZ) as Hk. set (k := vnorm (vscale (5 / 100) target)) in *. clearbody k.
  pose proof (eight_len eig _ (H8 (0, 0, 0))) as La. pose proof (eight_len eig _ (H8 (vscale (5 / 100) target))) as Lb.
  set (A := eight_band eig (bulk_args m host (0, 0, 0))) in *. set (B := eight_band eig (bulk_args m host (vscale (5 / 100) target))) in *. clearbody A B.
  do 8 (destruct A as [|? A]; [discriminate La|]). destruct A; [|discriminate La].
  do 8 (destruct B as [|? B]; [discriminate Lb|]). destruct B; [|discriminate Lb].
  cbn [combine map fst snd] in H. unfold named in H |- *.
  assert (G : forall E1 E0, let mass := option_map Rabs (point_mass k E1 E0) in (E1 = E0 -> mass = None) /\
      (E1 <> E0 -> exists mu, mass = Some mu /\ 0 < mu /\
         (E0 < E1 -> effective_mass_energy k mu E0 = E1) /\ (E1 < E0 -> effective_mass_energy k (- mu) E0 = E1))).
  { intros E1 E0. cbv zeta. destruct (point_mass_spec k E1 E0 Hk) as [P1 P2]. split.
    - intro Z. rewrite (P1 Z). reflexivity.
    - intro Z. destruct (P2 Z) as (mu & -> & Hmu & Q1 & _ & Q3). exists (Rabs mu). split; [reflexivity|]. split; [apply Rabs_pos_lt; exact Hmu|].
      split; intro L.
      + apply Q3 in L. rewrite Rabs_pos_eq by lra. exact Q1.
      + destruct (Rlt_dec 0 mu) as [P|N]; [apply Q3 in P; lra|]. rewrite Rabs_left by lra. rewrite Ropp_involutive. exact Q1. }
  do 2 eexists. split; [exact Et|]. split; [reflexivity|]. split; [reflexivity|]. cbv zeta.
  destruct (Rlt_dec (m_a m) (m_a host)); cbn [bindR] in H; apply ok_inj_ in H; apply (f_equal snd) in H; cbn [snd] in H;
    apply (f_equal (fun o => match o with Some x => x | None => (None, None, None, None) end)) in H; subst ms;
    (split; [apply G|]); (split; [apply G|]); (split; [apply G|]); apply G.
Qed.
(** A direction that is not a critical point is an error, but only when masses are asked for. *)
Theorem C181_direction : forall eig m host kx ky kz dir e, ~ In dir names ->
  named m host (eight_band eig (bulk_args m host (0, 0, kz))) = Ok e ->
  kp_bands eig m host kx ky kz true dir = Err KeyError /\ kp_bands eig m host kx ky kz false dir = Ok (e, None).
Proof.
  intros eig m host kx ky kz dir e Hn He. unfold kp_bands. rewrite He. cbn [bindR]. split; [|reflexivity].
  unfold point_masses, fit_point, critical_point. unfold names in Hn. cbn [In] in Hn.
  repeat (match goal with |- context [String.eqb dir ?s] => destruct (String.eqb_spec dir s); [exfalso; apply Hn; subst; tauto|] end).
  reflexivity.
Qed.

(** ** In-plane averages *)
Definition p1 (x : R * R * R * R) : R := fst (fst (fst x)).
Definition p2 (x : R * R * R * R) : R := snd (fst (fst x)).
Definition p3 (x : R * R * R * R) : R := snd (fst x).
Definition p4 (x : R * R * R * R) : R := snd x.
(** The wave vectors of every direction of the average are in the plane of the layer. *)
Theorem C181_in_plane : forall a th fraction points k, In k (kvector a th (PI / 2) fraction points None) -> vz k = 0.
Proof.
  intros a th fraction points k H. unfold kvector in H. apply in_map_iff in H as (x & <- & _).
  unfold vscale, direction, vz. cbn [snd]. rewrite cos_PI2. ring.
Qed.
Lemma sum_along_spec eig fit m host dk : forall ts s r, sum_along eig fit m host dk s ts = Ok r ->
  exists xs, Forall2 (fun t x => masses_along eig fit m host dk t = Ok x) ts xs /\
    p1 r = p1 s + fold_right Rplus 0 (map p1 xs) /\ p2 r = p2 s + fold_right Rplus 0 (map p2 xs) /\
    p3 r = p3 s + fold_right Rplus 0 (map p3 xs) /\ p4 r = p4 s + fold_right Rplus 0 (map p4 xs).
Proof.
  induction ts as [|t ts IH]; intros s r H; cbn [sum_along] in H.
  - apply ok_inj_ in H. subst s. exists []. cbn [map fold_right]. split; [constructor|]. repeat split; ring.
  - destruct (masses_along eig fit m host dk t) as [x|] eqn:E; cbn [bindR] in H; [|discriminate H].
    destruct (IH _ _ H) as (xs & F & A & B & C & D). exists (x :: xs). split; [constructor; assumption|].
    destruct s as [[[s1 s2] s3] s4], x as [[[x1 x2] x3] x4]. unfold p1, p2, p3, p4, add4 in *. cbn [map fold_right fst snd] in *. repeat split; lra.
Qed.
Lemma sum_bounds (l : list R) lo hi : Forall (fun x => lo <= x <= hi) l -> INR (length l) * lo <= fold_right Rplus 0 l <= INR (length l) * hi.
Proof.
  induction 1 as [|x r Hx _ IH]; [cbn; lra|]. cbn [fold_right length]. rewrite S_INR. lra.
Qed.
Lemma forall2_length {A B} (P : A -> B -> Prop) l l' : Forall2 P l l' -> length l = length l'.
Proof. induction 1; cbn; congruence. Qed.
(** The averages are arithmetic means over evenly spread directions of an eighth of the plane: they lie
    between the extremes, for each band by itself.  With no direction the function raises. *)
Theorem C181_average : forall eig fit m host points dk,
  (points = 0%nat -> average_inplane eig fit m host points dk = Err ZeroDivisionError) /\
  forall r, average_inplane eig fit m host points dk = Ok r ->
    (0 < points)%nat /\ exists xs, length xs = points /\
      (forall i, (i < points)%nat -> masses_along eig fit m host dk (PI / 4 * INR i / INR (points - 1)) = Ok (nth i xs r)) /\
      forall pr, In pr [p1; p2; p3; p4] -> INR points * pr r = fold_right Rplus 0 (map pr xs) /\
        forall lo hi, (forall x, In x xs -> lo <= pr x <= hi) -> lo <= pr r <= hi.
Proof.
  intros eig fit m host points dk. split; [intros ->; reflexivity|].
  intros r H. unfold average_inplane in H.
  destruct (sum_along eig fit m host dk (0, 0, 0, 0) (linspace 0 (PI / 4) points)) as [s|] eqn:E; cbn [bindR] in H; [|discriminate H].
  destruct points as [|n]; [discriminate H|]. split; [lia|]. set (N := S n) in *.
  assert (HN : 0 < INR N) by (apply lt_0_INR; unfold N; lia).
  destruct (sum_along_spec _ _ _ _ _ _ _ _ E) as (xs & F & A & B & C & D).
  pose proof (forall2_length _ _ _ F) as LX. rewrite linspace_length in LX.
  destruct s as [[[s1 s2] s3] s4]. cbv zeta in H. apply ok_inj_ in H. subst r.
  exists xs. split; [symmetry; exact LX|]. split.
  - intros i Hi.
    assert (G : forall l l' d d' i, Forall2 (fun t x => masses_along eig fit m host dk t = Ok x) l l' -> (i < length l)%nat ->
              masses_along eig fit m host dk (nth i l d) = Ok (nth i l' d')).
    { clear. intros l l' d d' i F. revert i. induction F as [|t x l l' H F IH]; intros i Hi; [cbn in Hi; lia|].
      destruct i; [exact H|]. cbn [nth]. apply IH. cbn in Hi. lia. }
    specialize (G _ _ 0 (s1 / INR N, s2 / INR N, s3 / INR N, s4 / INR N) i F). rewrite linspace_length, linspace_nth in G by exact Hi.
    replace (PI / 4 * INR i / INR (N - 1)) with (0 + (PI / 4 - 0) * INR i / INR (N - 1)) by (unfold Rdiv; ring).
    apply G. exact Hi.
  - intros pr Hpr.
    assert (M : INR N * pr (s1 / INR N, s2 / INR N, s3 / INR N, s4 / INR N) = fold_right Rplus 0 (map pr xs)).
    { unfold p1, p2, p3, p4 in *. cbn [fst snd] in A, B, C, D. cbn [In] in Hpr.
      destruct Hpr as [<-|[<-|[<-|[<-|[]]]]]; cbn [fst snd];
        match goal with |- INR N * (?x / INR N) = _ => replace (INR N * (x / INR N)) with x by (field; lra) end; lra. }
    split; [exact M|]. intros lo hi HB.
    assert (Hf : Forall (fun x => lo <= x <= hi) (map pr xs)) by (apply Forall_map, Forall_forall; exact HB).
    apply sum_bounds in Hf. rewrite map_length, <- LX, <- M in Hf.
    split; apply (Rmult_le_reg_l (INR N)); lra.
Qed.
(** kp8x8_bulk: the edges of KPbands with those averages. *)
Theorem C181_bulk : forall eig fit m host points dk e r, kp8x8_bulk eig fit m host points dk = Ok (e, r) <->
  KPbands_edges eig m host = Ok e /\ average_inplane eig fit m host points dk = Ok r.
Proof.
  intros eig fit m host points dk e r. unfold kp8x8_bulk.
  destruct (average_inplane eig fit m host points dk) as [a|]; cbn [bindR]; [|split; [intro H; discriminate H|intros [_ H]; discriminate H]].
  destruct (KPbands_edges eig m host) as [b|]; cbn [bindR]; [|split; [intro H; discriminate H|intros [H _]; discriminate H]].
  split; intro H.
  - apply ok_inj_ in H. apply pair_equal_spec in H as [-> ->]. split; reflexivity.
  - destruct H as [H1 H2]. apply ok_inj_ in H1. apply ok_inj_ in H2. subst. reflexivity.
Qed.

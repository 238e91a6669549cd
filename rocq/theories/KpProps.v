(** Properties of the 8-band Hamiltonian. *)
From Coq Require Import Reals Lra Lia String List Bool Permutation Sorted Psatz.
From Coquelicot Require Import Coquelicot.
From Coq Require Import List.
From Verif Require Import Common PhysConst NpModel StrainModel StrainProps LinAlg KpModel.
Import ListNotations.
Open Scope R_scope.
Open Scope list_scope.

(** * C54 *)

Lemma conj_R (x : R) : Cconj (RtoC x) = RtoC x.
Proof. apply injective_projections; simpl; ring. Qed.
Lemma conj_Rk i : Cconj (Rk i) = Rkc i.
Proof. unfold Rk, Rkc. apply injective_projections; simpl; ring. Qed.
Lemma conj_Sk i : Cconj (Sk i) = Skc i.
Proof. unfold Sk, Skc. apply injective_projections; simpl; ring. Qed.
Lemma conj_Tk i : Cconj (Tk i) = Tkc i.
Proof.
  unfold Tk, Tkc. rewrite <- RtoC_div by (apply Rgt_not_eq, sqrt_lt_R0; lra).
  apply injective_projections; simpl; ring.
Qed.
Lemma conj_Rkc i : Cconj (Rkc i) = Rk i. Proof. rewrite <- conj_Rk. apply Cconj_conj'. Qed.
Lemma conj_Skc i : Cconj (Skc i) = Sk i. Proof. rewrite <- conj_Sk. apply Cconj_conj'. Qed.
Lemma conj_Tkc i : Cconj (Tkc i) = Tk i. Proof. rewrite <- conj_Tk. apply Cconj_conj'. Qed.
Lemma conj_opp (a : C) : Cconj (- a)%C = (- Cconj a)%C.
Proof. apply injective_projections; simpl; ring. Qed.

Lemma entry_transpose n M i j : (i < n)%nat -> (j < n)%nat -> entry (transpose n M) i j = entry M j i.
Proof.
  intros Hi Hj. unfold entry at 1, transpose.
  rewrite (nth_indep _ [] (map (fun j => entry M j 0) (seq 0 n))) by (rewrite map_length, seq_length; auto).
  rewrite (map_nth (fun i => map (fun j => entry M j i) (seq 0 n)) (seq 0 n) 0%nat).
  rewrite seq_nth by auto. simpl.
  rewrite (nth_indep _ _ (entry M 0 i)) by (rewrite map_length, seq_length; auto).
  rewrite (map_nth (fun j => entry M j i) (seq 0 n) 0%nat). rewrite seq_nth by auto. reflexivity.
Qed.

(** C54: the matrix that is diagonalised is Hermitian for every wave vector, strain and
    set of band parameters. *)
Theorem C54_hermitian : forall i, hermitian 8 (entry (transpose 8 (H_ST i))).
Proof.
  intros i a b Ha Hb. rewrite !entry_transpose by assumption.
  do 8 (try destruct a as [|a]); try lia;
    do 8 (try destruct b as [|b]); try lia;
    unfold entry, H_ST; cbn [nth];
    rewrite ?conj_opp, ?Cconj_mult', ?conj_opp, ?conj_R, ?conj_Rk, ?conj_Sk, ?conj_Tk, ?conj_Rkc, ?conj_Skc, ?conj_Tkc;
    reflexivity.
Qed.

(** C54: hence every eigenvalue is real, and keeping the real part loses nothing. *)
Theorem C54_eigenvalues_real : forall i l v,
  eigenpair 8 (entry (transpose 8 (H_ST i))) l v -> l = RtoC (fst l).
Proof.
  intros i l v H. apply injective_projections; simpl; [reflexivity|].
  eapply hermitian_eigenvalue_real; [apply C54_hermitian|exact H].
Qed.

(** A wave vector and strain with every off-diagonal term present. *)
Definition ex_in : kp_in := {| i_kx := 1; i_ky := 2; i_kz := 3; i_Ev0 := 0; i_Ec0 := 1;
  i_exx := 1/100; i_ezz := -1/100; i_me := electron_mass / 10; i_g1 := 7; i_g2 := 2; i_g3 := 3;
  i_Delta := 1/3; i_ac := -7; i_av := -1; i_b := -2; i_Ep := 25 |}.
Example C54_example : snd (entry (transpose 8 (H_ST ex_in)) 6 1) <> 0.
Proof.
  rewrite entry_transpose by lia. unfold entry, H_ST, Rk; cbn [nth]. simpl.
  unfold Ck, g2', g3'; simpl. pose proof hbar_pos. pose proof electron_mass_pos.
  assert (0 < sqrt 3) by (apply sqrt_lt_R0; lra).
  set (e := hbar * (hbar * 1) / (2 * electron_mass)).
  assert (0 < e) by (apply Rdiv_lt_0_compat; nra). set (w := sqrt 3) in *. clearbody e w.
  assert (0 < e * w) by (apply Rmult_lt_0_compat; assumption). intro E. lra.
Qed.

(** What is asked of the eigenvalue solver: it returns the roots of the characteristic
    polynomial with their multiplicities. *)
Definition minor (M : nat -> nat -> C) (j : nat) : nat -> nat -> C :=
  fun i k => M (S i) (if Nat.ltb k j then k else S k).
Fixpoint det (n : nat) (M : nat -> nat -> C) : C :=
  match n with
  | O => RtoC 1
  | S m => csum n (fun j => RtoC ((-1) ^ j) * M O j * det m (minor M j))%C
  end.
Definition charmat (M : nat -> nat -> C) (x : C) : nat -> nat -> C :=
  fun i j => ((if Nat.eqb i j then x else RtoC 0) - M i j)%C.
Fixpoint clinprod (l : list C) (x : C) : C :=
  match l with [] => RtoC 1 | a :: l' => ((x - a) * clinprod l' x)%C end.
Definition eig_spec (n : nat) (M : nat -> nat -> C) (out : list (C * (nat -> C))) : Prop :=
  length out = n /\ Forall (fun p => eigenpair n M (fst p) (snd p)) out /\
  forall x : C, det n (charmat M x) = clinprod (map fst out) x.

(** C54: the sorted list returned is exactly the spectrum. *)
Theorem C54_bands : forall eig i,
  eig_spec 8 (entry (transpose 8 (H_ST i))) (eig (transpose 8 (H_ST i))) ->
  Permutation (map RtoC (eight_band eig i)) (map fst (eig (transpose 8 (H_ST i)))) /\
  StronglySorted Rle (eight_band eig i).
Proof.
  intros eig i (Hl & He & _). split; [|apply np_sort_sorted].
  unfold eight_band. set (out := eig (transpose 8 (H_ST i))) in *. clearbody out.
  transitivity (map RtoC (map (fun p => fst (fst p)) out)).
  - apply Permutation_map. symmetry. apply np_sort_perm.
  - rewrite map_map. erewrite map_ext_in; [reflexivity|].
    intros p Hp. rewrite Forall_forall in He. symmetry. eapply C54_eigenvalues_real, He, Hp.
Qed.

(** * C90: the edges at the zone centre *)

Lemma csum_shift n f : csum (S n) f = (f O + csum n (fun i => f (S i)))%C.
Proof.
  induction n as [|n IH]; [simpl; ring|].
  change (csum (S (S n)) f) with (csum (S n) f + f (S n))%C. rewrite IH. simpl. ring.
Qed.
Lemma det_ext n : forall M M' : nat -> nat -> C, (forall i j, (i < n)%nat -> (j < n)%nat -> M i j = M' i j) -> det n M = det n M'.
Proof.
  induction n as [|n IH]; intros M M' H; [reflexivity|].
  cbn [det]. apply csum_ext. intros j Hj. rewrite (H O j) by lia.
  f_equal. apply IH. intros a b Ha Hb. unfold minor.
  destruct (Nat.ltb_spec b j); apply H; lia.
Qed.
Lemma det_block1 n (M : nat -> nat -> C) : (forall j, (j < n)%nat -> M O (S j) = 0%C) ->
  det (S n) M = (M O O * det n (fun i k => M (S i) (S k)))%C.
Proof.
  intro H. cbn [det]. rewrite csum_shift. rewrite (csum_zero n).
  - simpl pow. rewrite Cplus_0_r, Cmult_1_l. f_equal.
  - intros j Hj. rewrite H by auto. ring.
Qed.
Lemma det_block2 n (M : nat -> nat -> C) :
  (forall j, (j < n)%nat -> M O (S (S j)) = 0%C /\ M 1%nat (S (S j)) = 0%C) ->
  det (S (S n)) M =
    ((M O O * M 1%nat 1%nat - M O 1%nat * M 1%nat O) * det n (fun i k => M (S (S i)) (S (S k))))%C.
Proof.
  intro H. change (det (S (S n)) M) with
    (csum (S (S n)) (fun j => RtoC ((-1) ^ j) * M O j * det (S n) (minor M j))%C).
  rewrite !csum_shift. rewrite (csum_zero n).
  2:{ intros j Hj. rewrite (proj1 (H j Hj)). ring. }
  rewrite (det_block1 n (minor M 0)), (det_block1 n (minor M 1)).
  - replace (RtoC ((-1) ^ 0)) with (RtoC 1) by (apply injective_projections; simpl; ring).
    replace (RtoC ((-1) ^ 1)) with (- RtoC 1)%C by (apply injective_projections; simpl; ring).
    unfold minor; cbn [Nat.ltb Nat.leb]. ring.
  - intros j Hj. unfold minor; simpl. apply H; auto.
  - intros j Hj. unfold minor; simpl. apply H; auto.
Qed.

Lemma sorted_perm_unique : forall l l' : list R,
  StronglySorted Rle l -> StronglySorted Rle l' -> Permutation l l' -> l = l'.
Proof.
  induction l as [|a l IH]; intros l' H H' P; [apply Permutation_nil in P; auto|].
  destruct l' as [|b l']; [symmetry in P; apply Permutation_nil in P; discriminate|].
  apply StronglySorted_inv in H. destruct H as [H Ha].
  apply StronglySorted_inv in H'. destruct H' as [H' Hb].
  rewrite Forall_forall in Ha, Hb.
  assert (a = b).
  { assert (A : In a (b :: l')) by (eapply Permutation_in; [exact P|left; auto]).
    assert (B : In b (a :: l)) by (eapply Permutation_in; [symmetry; exact P|left; auto]).
    destruct A as [A|A]; [auto|]. destruct B as [B|B]; [auto|].
    apply Rle_antisym; auto. }
  subst b. f_equal. apply IH; auto. eapply Permutation_cons_inv; exact P.
Qed.

Lemma clinprod_R l x : clinprod (map RtoC l) (RtoC x) = RtoC (linprod l x).
Proof. induction l as [|a l IH]; simpl; [reflexivity|]. rewrite IH, <- RtoC_minus, <- RtoC_mult. reflexivity. Qed.

(** The Hamiltonian at the zone centre. *)
Lemma zone_centre m host :
  let i := edge_args m host in
  Rk i = 0%C /\ Rkc i = 0%C /\ Sk i = 0%C /\ Skc i = 0%C /\ Tk i = 0%C /\ Tkc i = 0%C /\ Uk i = 0 /\
  t_cb i = b6_c (kp6x6 m host) /\ t_hh i = b6_hh (kp6x6 m host) /\
  t_q i = Qe m host /\ t_lh i = m_vbo m - Pe m host + Qe m host /\ t_so i = m_vbo m - Pe m host - m_so m.
Proof.
  cbv zeta. unfold Rk, Rkc, Sk, Skc, Tk, Tkc, Uk, t_hh, t_lh, t_so, t_cb, t_p, t_q, Pk, Qk, Ok_, Oe8, Pe8, Qe8;
    cbn [edge_args i_kx i_ky i_kz i_Ev0 i_Ec0 i_exx i_ezz i_Delta i_ac i_av i_b kp6x6 b6_c b6_hh].
  unfold Pe, Qe, Oe, ezz, exx.
  assert (S6 : 1 / sqrt 6 * P0 (edge_args m host) * 0 = 0) by ring.
  repeat split; try ring; apply injective_projections; simpl; ring.
Qed.

Definition centre_mat (m host : mat) (a b : nat) : C :=
  if Nat.eqb a b then
    RtoC (match a with
    | 0%nat | 4%nat => b6_c (kp6x6 m host)
    | 1%nat | 5%nat => b6_hh (kp6x6 m host)
    | 2%nat | 6%nat => m_vbo m - Pe m host + Qe m host
    | _ => m_vbo m - Pe m host - m_so m
    end)
  else match a, b with
    | 2%nat, 3%nat | 3%nat, 2%nat | 6%nat, 7%nat | 7%nat, 6%nat => RtoC (- (sqrt 2 * Qe m host))
    | _, _ => RtoC 0
    end.
Lemma zone_entries m host a b : (a < 8)%nat -> (b < 8)%nat ->
  entry (transpose 8 (H_ST (edge_args m host))) a b = centre_mat m host a b.
Proof.
  intros Ha Hb. rewrite entry_transpose by assumption.
  destruct (zone_centre m host) as (E1 & E2 & E3 & E4 & E5 & E6 & E7 & E8 & E9 & E10 & E11 & E12).
  unfold entry, H_ST. rewrite E1, E2, E3, E4, E5, E6, E7, E8, E9, E10, E11, E12.
  do 8 (try destruct a as [|a]); try lia;
    do 8 (try destruct b as [|b]); try lia; unfold centre_mat; cbn [nth Nat.eqb];
    apply injective_projections; simpl; ring.
Qed.

Lemma centre_root m host : 0 <= m_so m -> forall l,
  l = b6_so (kp6x6 m host) \/ l = b6_lh (kp6x6 m host) ->
  (m_vbo m - Pe m host + Qe m host - l) * (m_vbo m - Pe m host - m_so m - l) = 2 * (Qe m host * Qe m host).
Proof.
  intros Hd l Hl. cbn [kp6x6 b6_so b6_lh] in Hl.
  assert (S0 : 0 <= m_so m ^ 2 + 2 * m_so m * Qe m host + 9 * Qe m host ^ 2) by nra.
  set (Z := m_so m ^ 2 + 2 * m_so m * Qe m host + 9 * Qe m host ^ 2) in *.
  assert (SZ : sqrt Z * sqrt Z = Z) by (apply sqrt_sqrt; exact S0).
  set (w := sqrt Z) in *. clearbody w.
  destruct Hl as [-> | ->];
    match goal with |- ?a * ?b = _ =>
      replace (a * b) with (/ 4 * (w * w) - / 4 * (Qe m host + m_so m) ^ 2) by field end;
    rewrite SZ; unfold Z; field.
Qed.
Lemma centre_sum m host :
  b6_so (kp6x6 m host) + b6_lh (kp6x6 m host) =
  (m_vbo m - Pe m host + Qe m host) + (m_vbo m - Pe m host - m_so m).
Proof. cbn [kp6x6 b6_so b6_lh]. field. Qed.

Lemma char_edges m host (x : C) : 0 <= m_so m ->
  det 8 (charmat (entry (transpose 8 (H_ST (edge_args m host)))) x) =
  let b := kp6x6 m host in
  clinprod (map RtoC [b6_so b; b6_so b; b6_lh b; b6_lh b; b6_hh b; b6_hh b; b6_c b; b6_c b]) x.
Proof.
  intro Hd. cbv zeta.
  rewrite (det_ext 8 _ (charmat (centre_mat m host) x)).
  2:{ intros a b Ha Hb. unfold charmat. rewrite zone_entries by assumption. reflexivity. }
  assert (Z0 : forall a b, Nat.eqb a b = false -> centre_mat m host a b = RtoC 0 ->
               charmat (centre_mat m host) x a b = 0%C).
  { intros a b H1 H2. unfold charmat. rewrite H1, H2. ring. }
  rewrite (det_block1 7).
  2:{ intros j Hj. do 7 (try destruct j as [|j]); try lia; apply Z0; reflexivity. }
  rewrite (det_block1 6).
  2:{ intros j Hj. do 6 (try destruct j as [|j]); try lia; apply Z0; reflexivity. }
  rewrite (det_block2 4).
  2:{ intros j Hj. do 4 (try destruct j as [|j]); try lia; split; apply Z0; reflexivity. }
  rewrite (det_block1 3).
  2:{ intros j Hj. do 3 (try destruct j as [|j]); try lia; apply Z0; reflexivity. }
  rewrite (det_block1 2).
  2:{ intros j Hj. do 2 (try destruct j as [|j]); try lia; apply Z0; reflexivity. }
  rewrite (det_block2 0).
  2:{ intros j Hj. lia. }
  unfold charmat, centre_mat; cbn [Nat.eqb det].
  cbn [map clinprod].
  assert (S2 : sqrt 2 * sqrt 2 = 2) by (apply sqrt_sqrt; lra).
  pose proof (centre_sum m host) as HS.
  pose proof (centre_root m host Hd _ (or_introl eq_refl)) as HP.
  set (so := b6_so (kp6x6 m host)) in *. set (lh := b6_lh (kp6x6 m host)) in *.
  set (A := m_vbo m - Pe m host + Qe m host) in *. set (B := m_vbo m - Pe m host - m_so m) in *.
  set (Q := Qe m host) in *.
  assert (HM : so * lh = A * B - 2 * (Q * Q)).
  { replace lh with (A + B - so) by lra. rewrite <- HP. ring. }
  clearbody so lh A B Q.
  assert (K : ((x - RtoC A) * (x - RtoC B) -
              (RtoC 0 - RtoC (- (sqrt 2 * Q))) * (RtoC 0 - RtoC (- (sqrt 2 * Q))))%C =
              ((x - RtoC so) * (x - RtoC lh))%C).
  { transitivity (x * x - RtoC (A + B) * x + RtoC (A * B - sqrt 2 * sqrt 2 * (Q * Q)))%C.
    - apply injective_projections; simpl; ring.
    - rewrite S2, <- HM, <- HS. apply injective_projections; simpl; ring. }
  rewrite K. ring.
Qed.

Lemma edges_order m host : elastic m -> m_b m <= 0 -> 0 <= m_so m ->
  let b := kp6x6 m host in
  b6_so b <= b6_lh b /\ b6_so b <= b6_hh b /\
  (m_a host <= m_a m -> b6_lh b <= b6_hh b) /\ (m_a m <= m_a host -> b6_hh b <= b6_lh b).
Proof.
  intros He Hb Hs. pose proof (ratio_bounds m He) as Hr. destruct He as (Hc11 & _ & Ha).
  cbv zeta; cbn [kp6x6 b6_so b6_lh b6_hh].
  set (e := exx m host).
  assert (EQ : Qe m host = - m_b m * (1 + 2 * (m_c12 m / m_c11 m)) * e).
  { unfold Qe, ezz. fold e. unfold Rdiv. field; apply Rgt_not_eq; assumption. }
  set (k := - m_b m * (1 + 2 * (m_c12 m / m_c11 m))) in *.
  assert (Hk : 0 <= k) by (unfold k; apply Rmult_le_pos; lra).
  assert (He : e * m_a m = m_a host - m_a m) by (unfold e, exx; field; lra).
  clearbody k e.
  set (Q := Qe m host) in *. set (D := m_so m) in *. clearbody Q D.
  set (Z := D ^ 2 + 2 * D * Q + 9 * Q ^ 2).
  assert (HZ : 0 <= Z) by (unfold Z; nra).
  pose proof (sqrt_pos Z) as Hw. pose proof (sqrt_sqrt Z HZ) as Hww. set (w := sqrt Z) in *. clearbody w.
  assert (L1 : 3 * Q - D <= w).
  { destruct (Rle_dec (3 * Q - D) 0); [lra|].
    destruct (Rle_dec (3 * Q - D) w); [assumption|]. exfalso. unfold Z in Hww.
    assert (w * w < (3 * Q - D) * (3 * Q - D)) by nra. nra. }
  repeat split; try lra.
  - intro H. assert (e <= 0) by nra. assert (Q <= 0) by nra.
    assert (w <= D - 3 * Q); [|lra].
    destruct (Rle_dec w (D - 3 * Q)); [assumption|]. exfalso. unfold Z in Hww.
    assert ((D - 3 * Q) * (D - 3 * Q) < w * w) by nra. nra.
  - intro H. assert (0 <= e) by nra. assert (0 <= Q) by nra.
    assert (D - 3 * Q <= w); [|lra].
    destruct (Rle_dec (D - 3 * Q) 0); [lra|].
    destruct (Rle_dec (D - 3 * Q) w); [assumption|]. exfalso. unfold Z in Hww.
    assert (w * w < (D - 3 * Q) * (D - 3 * Q)) by nra. nra.
Qed.

Lemma edges_sorted eig m host l :
  eig_spec 8 (entry (transpose 8 (H_ST (edge_args m host)))) (eig (transpose 8 (H_ST (edge_args m host)))) ->
  0 <= m_so m -> StronglySorted Rle l ->
  (let b := kp6x6 m host in
   Permutation l [b6_so b; b6_so b; b6_lh b; b6_lh b; b6_hh b; b6_hh b; b6_c b; b6_c b]) ->
  eight_band eig (edge_args m host) = l.
Proof.
  intros Hs Hd Hl HP. cbv zeta in HP.
  destruct (C54_bands eig (edge_args m host) Hs) as [P SS].
  apply sorted_perm_unique; auto. symmetry. etransitivity; [exact HP|]. symmetry.
  destruct Hs as (Hlen & _ & Hc).
  assert (HC := fun x => eq_trans (eq_sym (char_edges m host (RtoC x) Hd)) (Hc (RtoC x))). clear Hc.
  set (i := edge_args m host) in *. set (out := eig (transpose 8 (H_ST i))) in *.
  assert (Hn : map fst out = map (fun a => RtoC (fst a)) (map fst out)).
  { rewrite <- map_id at 1. apply map_ext_in. intros a Ha.
    apply (Permutation_in _ (Permutation_sym P)) in Ha. apply in_map_iff in Ha.
    destruct Ha as (y & <- & _). reflexivity. }
  transitivity (map (fun p => fst (fst p)) out).
  { unfold eight_band. symmetry. apply np_sort_perm. }
  apply linprod_permutation.
  { etransitivity; [apply map_length|]. exact Hlen. }
  intro x. specialize (HC x). cbv zeta in HC.
  rewrite Hn, <- (map_map fst RtoC), !clinprod_R, map_map in HC.
  symmetry. exact (f_equal fst HC).
Qed.

Lemma sorted8 a b c d : a <= b -> b <= c -> c <= d -> StronglySorted Rle [a; a; b; b; c; c; d; d].
Proof.
  intros. repeat apply SSorted_cons; try apply SSorted_nil;
    repeat first [apply Forall_nil | apply Forall_cons]; lra.
Qed.

(** C90: with the deformation potential of the usual sign and the conduction edge above
    the valence edges, the edges of the 8-band model are those of the analytic 6-band
    formulas, and blind relabelling by lattice constant labels them correctly. *)
Theorem C90_edges_partial : forall eig m host,
  eig_spec 8 (entry (transpose 8 (H_ST (edge_args m host)))) (eig (transpose 8 (H_ST (edge_args m host)))) ->
  elastic m -> m_b m <= 0 -> 0 <= m_so m ->
  b6_hh (kp6x6 m host) <= b6_c (kp6x6 m host) -> b6_lh (kp6x6 m host) <= b6_c (kp6x6 m host) ->
  KPbands_edges eig m host =
    Ok (b6_c (kp6x6 m host), b6_hh (kp6x6 m host), b6_lh (kp6x6 m host), b6_so (kp6x6 m host)).
Proof.
  intros eig m host Hs He Hb Hd H1 H2.
  destruct (edges_order m host He Hb Hd) as (O1 & O2 & O3 & O4).
  unfold KPbands_edges. destruct (Rlt_dec (m_a m) (m_a host)) as [L|L].
  - rewrite (edges_sorted eig m host _ Hs Hd
      (sorted8 _ _ _ _ O2 (O4 (Rlt_le _ _ L)) H2)); [reflexivity|].
    cbv zeta. constructor. constructor.
    etransitivity; [apply (Permutation_app_comm [_; _] [_; _; _; _])|]. simpl.
    do 2 constructor. apply (Permutation_app_comm [_; _] [_; _]).
  - apply Rnot_lt_le in L.
    rewrite (edges_sorted eig m host _ Hs Hd (sorted8 _ _ _ _ O1 (O3 L) H1)); [reflexivity|].
    cbv zeta. reflexivity.
Qed.

(** The solver's contract can be met: for a strained layer the eigenvectors at the zone
    centre are explicit. *)
Definition unit_vec (k : nat) : nat -> C := fun j => if Nat.eqb j k then RtoC 1 else RtoC 0.
Definition pair_vec (k : nat) (a b : R) : nat -> C :=
  fun j => if Nat.eqb j k then RtoC a else if Nat.eqb j (S k) then RtoC b else RtoC 0.
Definition centre_eig (m host : mat) : list (C * (nat -> C)) :=
  let b := kp6x6 m host in
  let q := sqrt 2 * Qe m host in
  let d := m_vbo m - Pe m host + Qe m host in
  [(RtoC (b6_so b), pair_vec 2 q (d - b6_so b)); (RtoC (b6_so b), pair_vec 6 q (d - b6_so b));
   (RtoC (b6_lh b), pair_vec 2 q (d - b6_lh b)); (RtoC (b6_lh b), pair_vec 6 q (d - b6_lh b));
   (RtoC (b6_hh b), unit_vec 1); (RtoC (b6_hh b), unit_vec 5);
   (RtoC (b6_c b), unit_vec 0); (RtoC (b6_c b), unit_vec 4)].

Lemma centre_eig_spec m host : 0 <= m_so m -> Qe m host <> 0 ->
  eig_spec 8 (entry (transpose 8 (H_ST (edge_args m host)))) (centre_eig m host).
Proof.
  intros Hd HQ. split; [reflexivity|]. split.
  2:{ intro x. rewrite char_edges by exact Hd. reflexivity. }
  assert (S2 : sqrt 2 * sqrt 2 = 2) by (apply sqrt_sqrt; lra).
  assert (S2p : 0 < sqrt 2) by (apply sqrt_lt_R0; lra).
  assert (HE : forall (l : R) (v : nat -> C), (exists k, (k < 8)%nat /\ v k <> 0%C) ->
    (forall a, (a < 8)%nat -> csum 8 (fun j => centre_mat m host a j * v j)%C = (RtoC l * v a)%C) ->
    eigenpair 8 (entry (transpose 8 (H_ST (edge_args m host)))) (RtoC l) v).
  { intros l v H1 H2. split; [exact H1|]. intros a Ha. rewrite <- (H2 a Ha).
    apply csum_ext. intros j Hj. rewrite zone_entries by assumption. reflexivity. }
  assert (HN : forall x : R, x <> 0 -> RtoC x <> 0%C).
  { intros x Hx E. apply (f_equal fst) in E. simpl in E. auto. }
  assert (HP : forall k l, k = 2%nat \/ k = 6%nat ->
     l = b6_so (kp6x6 m host) \/ l = b6_lh (kp6x6 m host) ->
     eigenpair 8 (entry (transpose 8 (H_ST (edge_args m host)))) (RtoC l)
       (pair_vec k (sqrt 2 * Qe m host) (m_vbo m - Pe m host + Qe m host - l))).
  { intros k l Hk Hl. pose proof (centre_root m host Hd l Hl) as HR. clear Hl. apply HE.
    - exists k. split; [lia|]. unfold pair_vec. rewrite Nat.eqb_refl. apply HN.
      apply Rmult_integral_contrapositive_currified; lra.
    - intros a Ha. unfold centre_mat.
      set (A := m_vbo m - Pe m host + Qe m host) in *. set (B := m_vbo m - Pe m host - m_so m) in *.
      set (Q := Qe m host) in *. clearbody A B Q.
      destruct Hk as [-> | ->]; do 8 (try destruct a as [|a]); try lia; unfold pair_vec;
        cbn [csum Nat.eqb]; apply injective_projections; simpl; try ring.
      all: transitivity (- (sqrt 2 * sqrt 2 * (Q * Q)) + B * (A - l)); [ring|];
        rewrite S2, <- HR; ring. }
  assert (HU : forall k l, In (k, l) [(1%nat, b6_hh (kp6x6 m host)); (5%nat, b6_hh (kp6x6 m host));
                   (0%nat, b6_c (kp6x6 m host)); (4%nat, b6_c (kp6x6 m host))] ->
     eigenpair 8 (entry (transpose 8 (H_ST (edge_args m host)))) (RtoC l) (unit_vec k)).
  { intros k l Hin. assert (Hk : (k < 8)%nat).
    { simpl in Hin. repeat (destruct Hin as [Hin|Hin]; [injection Hin as <- _; lia|]). contradiction. }
    apply HE.
    - exists k. split; [exact Hk|]. unfold unit_vec. rewrite Nat.eqb_refl. apply HN. lra.
    - intros a Ha. unfold centre_mat.
      set (hh := b6_hh (kp6x6 m host)) in *. set (cc := b6_c (kp6x6 m host)) in *. clearbody hh cc.
      simpl in Hin. repeat (destruct Hin as [Hin|Hin]; [injection Hin as <- <-|]); try contradiction;
        do 8 (try destruct a as [|a]); try lia; unfold unit_vec; cbn [csum Nat.eqb];
        apply injective_projections; simpl; ring. }
  unfold centre_eig. repeat apply Forall_cons; try apply Forall_nil; cbn [fst snd];
    first [apply HP; auto | apply HU; simpl; auto 6].
Qed.

(** A compressively strained layer meeting all the hypotheses. *)
Example C90_example :
  let eig := fun _ => centre_eig ex_mat ex_sub in
  eig_spec 8 (entry (transpose 8 (H_ST (edge_args ex_mat ex_sub)))) (eig (transpose 8 (H_ST (edge_args ex_mat ex_sub)))) /\
  elastic ex_mat /\ m_b ex_mat <= 0 /\ 0 <= m_so ex_mat /\ m_a ex_sub < m_a ex_mat /\
  b6_hh (kp6x6 ex_mat ex_sub) <= b6_c (kp6x6 ex_mat ex_sub) /\ b6_lh (kp6x6 ex_mat ex_sub) <= b6_c (kp6x6 ex_mat ex_sub).
Proof.
  cbv zeta.
  assert (HQ : Qe ex_mat ex_sub = - (2/3)) by (unfold Qe, ezz, exx; simpl; field).
  assert (HP : Pe ex_mat ex_sub = 1/6) by (unfold Pe, ezz, exx; simpl; rewrite Rabs_left by lra; field).
  assert (HO : Oe ex_mat ex_sub = 1) by (unfold Oe, ezz, exx; simpl; field).
  assert (He : elastic ex_mat) by (unfold elastic; simpl; lra).
  split; [apply centre_eig_spec; [simpl; lra|rewrite HQ; lra]|].
  destruct (edges_order ex_mat ex_sub He) as (_ & _ & H3 & _); [simpl; lra|simpl; lra|].
  assert (b6_hh (kp6x6 ex_mat ex_sub) <= b6_c (kp6x6 ex_mat ex_sub)).
  { cbn [kp6x6 b6_hh b6_c]. rewrite HQ, HP, HO. simpl. lra. }
  repeat split; try (simpl; lra); auto.
  eapply Rle_trans; [apply H3; simpl; lra|assumption].
Qed.

(** C90: with the opposite sign of the shear deformation potential the same edges are
    returned under the wrong names. *)
Theorem C90_labels_refuted : exists eig m host,
  eig_spec 8 (entry (transpose 8 (H_ST (edge_args m host)))) (eig (transpose 8 (H_ST (edge_args m host)))) /\
  elastic m /\ 0 < m_so m /\ 0 < m_b m /\
  b6_hh (kp6x6 m host) < b6_c (kp6x6 m host) /\ b6_lh (kp6x6 m host) < b6_c (kp6x6 m host) /\
  b6_hh (kp6x6 m host) <> b6_lh (kp6x6 m host) /\
  KPbands_edges eig m host =
    Ok (b6_c (kp6x6 m host), b6_lh (kp6x6 m host), b6_hh (kp6x6 m host), b6_so (kp6x6 m host)).
Proof.
  set (m := {| m_av := -1; m_ac := -6; m_b := 2; m_c11 := 10; m_c12 := 5; m_a := 5;
    m_so := 1; m_gap := 20; m_vbo := -1/2; m_g1 := 10; m_g2 := 3; m_g3 := 4; m_me := 1/20; m_Ep := 25 |}).
  set (host := {| m_av := -1; m_ac := -6; m_b := 2; m_c11 := 10; m_c12 := 5; m_a := 6;
    m_so := 1; m_gap := 20; m_vbo := -1/2; m_g1 := 10; m_g2 := 3; m_g3 := 4; m_me := 1/20; m_Ep := 25 |}).
  assert (HQ : Qe m host = - (4/5)) by (unfold Qe, ezz, exx; simpl; field).
  assert (HP : Pe m host = - (1/5)) by (unfold Pe, ezz, exx; simpl; rewrite Rabs_left by lra; field).
  assert (HO : Oe m host = - (6/5)) by (unfold Oe, ezz, exx; simpl; field).
  assert (Hs : m_so m = 1) by reflexivity.
  assert (Hspec : eig_spec 8 (entry (transpose 8 (H_ST (edge_args m host)))) (centre_eig m host)).
  { apply centre_eig_spec; rewrite ?Hs, ?HQ; lra. }
  exists (fun _ => centre_eig m host), m, host.
  assert (HZ : b6_lh (kp6x6 m host) < b6_hh (kp6x6 m host) /\ b6_so (kp6x6 m host) <= b6_lh (kp6x6 m host) /\
               b6_hh (kp6x6 m host) < b6_c (kp6x6 m host)).
  { cbn [kp6x6 b6_hh b6_c b6_lh b6_so]. rewrite HQ, HP, HO, Hs.
    set (Z := 1 ^ 2 + 2 * 1 * - (4 / 5) + 9 * (- (4 / 5)) ^ 2).
    assert (Z = 129/25) by (unfold Z; field).
    assert (0 < sqrt Z) by (apply sqrt_lt_R0; lra).
    assert (sqrt Z * sqrt Z = Z) by (apply sqrt_sqrt; lra).
    simpl. repeat split; try lra. nra. }
  destruct HZ as (H1 & H2 & H3).
  split; [exact Hspec|]. repeat split; try (simpl; lra); try lra.
  unfold KPbands_edges. destruct (Rlt_dec (m_a m) (m_a host)) as [L|L]; [|simpl in L; lra].
  rewrite (edges_sorted (fun _ => centre_eig m host) m host _ Hspec ltac:(rewrite Hs; lra)
    (sorted8 _ _ _ _ H2 (Rlt_le _ _ H1) (Rlt_le _ _ H3))); [reflexivity|].
  cbv zeta. reflexivity.
Qed.

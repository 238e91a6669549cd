(** C180, third part: examples on a mesh of two points with true eigenvectors, and what the
    functions do not do. *)
From Coq Require Import Reals ZArith String List Bool Lia Lra Permutation.
From Coquelicot Require Import Coquelicot.
From Coq Require Import List.
From Verif Require Import Common PhysConst InterpModel NpModel TmmModel DetBalModel DetBalProps SchrodModel LinAlg
  SchrodProps SchrodProps2 EllProps BandQwModel BandQwProps BandQwProps2.
Import ListNotations.
Open Scope R_scope.
Open Scope list_scope.

(** A flat well on the mesh 0, 1. *)
Definition flat (a b g1 g2 g3 : R) : well := Well [0; 1] [0; 0] [electron_mass; electron_mass] [a; a] [b; b] [g1; g1] [g2; g2] [g3; g3].

Lemma max01 : list_max [0; 1] = 1.
Proof. simpl. unfold Rmax. destruct (Rle_dec 0 1); lra. Qed.

(** The hole matrix on this mesh. *)
Definition two_points (A1 A2 B1 B2 C D : R) : list (list R) :=
  [[2 * A2 + A1; C; - A2; - D / 2]; [C; 2 * B2 + B1; D / 2; - B2];
   [- A2; D / 2; 2 * A2 + A1; C]; [- D / 2; - B2; C; 2 * B2 + B1]].

Lemma flat_matrix a b g1 g2 g3 kt (blk : bool) i j : (i < 4)%nat -> (j < 4)%nat ->
  hole_matrix (flat a b g1 g2 g3) kt blk i j =
  let o := offset (flat a b g1 g2 g3) in let e := E0 [0; 1] in
  let A1 := / 2 * (g1 + g2) * kt ^ 2 + (o - a) / e in let B1 := / 2 * (g1 - g2) * kt ^ 2 + (o - b) / e in
  let A2 := / 2 * (g1 - 2 * g2) in let B2 := / 2 * (g1 + 2 * g2) in
  let C := sqrt 3 / 4 * (g2 + g3) * kt ^ 2 in let D := sqrt 3 * g3 * kt in
  nth j (nth i (if blk then two_points A1 A2 B1 B2 C D else two_points B1 B2 A1 A2 C D) []) 0.
Proof.
  intros Hi Hj. cbv zeta. unfold hole_matrix, fill_hamiltonian, hole_coeffs, flat, offset.
  cbn [q_x q_Vhh q_Vlh q_g1 q_g2 q_g3]. rewrite max01.
  generalize (E0 [0; 1]). intro e. generalize (Rmin (list_min [a; a]) (list_min [b; b])). intro o.
  assert (I : (i = 0 \/ i = 1 \/ i = 2 \/ i = 3)%nat) by lia. assert (J : (j = 0 \/ j = 1 \/ j = 2 \/ j = 3)%nat) by lia.
  destruct I as [->|[->|[->| ->]]]; destruct J as [->|[->|[->| ->]]]; destruct blk; cbn; unfold Rdiv;
    rewrite ?Rinv_1, ?Rminus_0_r, ?Rmult_1_r, ?Rinv_1, ?Rmult_1_r; try lra; try field.
  all: try (set (s3 := sqrt 3); nra).
Qed.

Lemma pair4 (H : matrix) (e x0 x1 x2 x3 : R) : (x0 <> 0 \/ x1 <> 0) ->
  (forall i, (i < 4)%nat -> H i 0%nat * x0 + H i 1%nat * x1 + H i 2%nat * x2 + H i 3%nat * x3 = e * nth i [x0; x1; x2; x3] 0) ->
  length [RtoC x0; RtoC x1; RtoC x2; RtoC x3] = 4%nat /\
  eigenpair 4 (fun i j => RtoC (H i j)) (RtoC e) (vec [RtoC x0; RtoC x1; RtoC x2; RtoC x3]).
Proof.
  intros Hn He. split; [reflexivity|]. split.
  - destruct Hn as [Hn|Hn]; [exists 0%nat|exists 1%nat]; (split; [lia|]); simpl; intro K; apply Hn;
      apply (f_equal fst) in K; simpl in K; exact K.
  - intros i Hi. specialize (He i Hi). cbn [csum].
    assert (I : (i = 0 \/ i = 1 \/ i = 2 \/ i = 3)%nat) by lia.
    destruct I as [->|[->|[->| ->]]]; cbn [nth] in *; apply injective_projections; cbn; try lra.
Qed.

(** The same levels for both blocks, whatever the matrix. *)
Definition always (l : list (C * list C)) : solver := fun _ _ _ _ => l.
Definition c4 (x0 x1 x2 x3 : R) : list C := [RtoC x0; RtoC x1; RtoC x2; RtoC x3].

(** With energies below the limit nothing is dropped. *)
Lemma keeps lim n (l : list (R * list C)) : (length l <= n)%nat -> (forall p, In p l -> fst p < lim) ->
  confined (RtoC lim) n (map (fun p => (RtoC (fst p), snd p)) l) = map (fun p => (RtoC (fst p), snd p)) l.
Proof.
  intros Hn Hl. unfold confined. rewrite firstn_all2 by (rewrite map_length; exact Hn). clear Hn.
  induction l as [|p l IH]; [reflexivity|]. cbn [map filter]. unfold cltc at 1. cbn [fst snd RtoC].
  destruct (Rlt_dec (fst p) lim) as [_|K]; [|exfalso; apply K, Hl; left; reflexivity].
  rewrite IH; [reflexivity|]. intros p' Hp'. apply Hl. right. exact Hp'.
Qed.

(** [quasiconfined] in units of E0. *)
Definition units (x : R) : R := x * E0 [0; 1] / q.
Lemma E01_pos : 0 < E0 [0; 1].
Proof. apply E0_pos. rewrite max01. lra. Qed.
Lemma units_nonneg x : 0 <= x -> 0 <= units x.
Proof. intro H. pose proof E01_pos. pose proof q_pos. unfold units. apply Rmult_le_pos; [nra|]. left. now apply Rinv_0_lt_compat. Qed.
Lemma flat_limit a b g1 g2 g3 x out : 0 <= x ->
  limit (potmax (flat a b g1 g2 g3) (units x)) (units x) out = Ok (RtoC x).
Proof.
  intro Hx. unfold limit. destruct (Rlt_dec (units x) 0) as [K|_]; [pose proof (units_nonneg x Hx); lra|].
  do 2 f_equal. unfold potmax. rewrite top_zero; [|discriminate|discriminate|cbn [q_x flat]; rewrite max01; lra].
  cbn [q_x flat]. unfold units. pose proof E01_pos. pose proof q_pos. field. split; lra.
Qed.

Lemma trapz01 x y : np_trapz [x; y] [0; 1] = (x + y) / 2.
Proof. rewrite np_trapz_cons. simpl. lra. Qed.

(** C180: the lower levels are not put in the order of their energies. *)
Theorem C180_lower_order_refuted : exists eigs w num quasi u l,
  eigs_ok eigs (hole_matrix w 0 true) 4 num (sigma w) /\ eigs_ok eigs (hole_matrix w 0 false) 4 num (sigma w) /\
  solve_holes eigs w 0 num num quasi false = Ok (u, Some l) /\
  map v_e u = map v_e (rev l) /\ nth 0 (map v_e l) 0 < nth 1 (map v_e l) 0.
Proof.
  pose (sol := [(3 / 2, c4 1 0 (-1) 0); (1 / 2, c4 1 0 1 0)] : list (R * list C)).
  pose (w := flat 0 0 1 0 0).
  assert (HO : offset w = 0).
  { unfold w, offset, flat. cbn [q_Vhh q_Vlh list_min fold_left]. rewrite !Rmin_left by lra. reflexivity. }
  assert (HK : forall blk, eigs_ok (always (map (fun p => (RtoC (fst p), snd p)) sol)) (hole_matrix w 0 blk) 4 2 (sigma w)).
  { intro blk. unfold eigs_ok, always, sol. cbn [map fst snd].
    constructor; [|constructor; [|constructor]]; apply pair4; try (left; lra);
      intros i Hi; unfold w; rewrite !flat_matrix by lia; cbv zeta; fold w; rewrite HO;
      assert (I : (i = 0 \/ i = 1 \/ i = 2 \/ i = 3)%nat) by lia;
      destruct I as [->|[->|[->| ->]]]; destruct blk; cbn; unfold Rdiv; lra. }
  exists (always (map (fun p => (RtoC (fst p), snd p)) sol)), w, 2%nat, (units 2).
  eexists. eexists. split; [apply HK|]. split; [apply HK|]. split.
  - unfold solve_holes, always. unfold w. rewrite flat_limit by lra. cbn [bindR].
    rewrite (keeps 2 2 sol); [reflexivity|reflexivity|]. unfold sol. intros p [<-|[<-|[]]]; simpl; lra.
  - pose proof E01_pos as P. unfold normal_upper, normal_lower. rewrite map_rev, !map_map. cbn [v_e]. unfold sol. cbn [map].
    unfold sort_raw. cbn [fold_right insert_raw to_raw w_e fst snd RtoC].
    destruct (Rle_dec (3 / 2) (1 / 2)) as [K|_]; [lra|]. cbn [map rev app w_e nth to_raw fst snd RtoC]. fold w. rewrite HO. split; [reflexivity|].
    change (q_x w) with [0; 1]. lra.
Qed.

(** C180: the components of a mixed level are normalised separately, so that the particle is
    counted twice. *)
Theorem C180_total_refuted : exists eigs w kt num quasi v,
  eigs_ok eigs (hole_matrix w kt true) 4 num (sigma w) /\
  solve_holes eigs w kt num num quasi true = Ok ([v], None) /\
  np_trapz (map (fun a => a * a) (v_a v)) (q_x w) + np_trapz (map (fun a => a * a) (v_b v)) (q_x w) = 2.
Proof.
  pose (sol := [(1 / 2, c4 1 0 0 1)] : list (R * list C)).
  pose (w := flat 0 0 1 0 (2 / sqrt 3)).
  assert (S3 : sqrt 3 * (2 / sqrt 3) = 2) by (field; apply Rgt_not_eq, sqrt_lt_R0; lra).
  assert (HO : offset w = 0).
  { unfold w, offset, flat. cbn [q_Vhh q_Vlh list_min fold_left]. rewrite !Rmin_left by lra. reflexivity. }
  assert (HK : eigs_ok (always (map (fun p => (RtoC (fst p), snd p)) sol)) (hole_matrix w 1 true) 4 1 (sigma w)).
  { unfold eigs_ok, always, sol. cbn [map fst snd].
    constructor; [|constructor]; apply pair4; try (left; lra).
    intros i Hi; unfold w; rewrite !flat_matrix by lia; cbv zeta; fold w; rewrite HO.
    clear HO. clearbody w. clear w. revert S3. generalize (2 / sqrt 3). generalize (sqrt 3). intros s3 g3 S3.
    assert (I : (i = 0 \/ i = 1 \/ i = 2 \/ i = 3)%nat) by lia.
    destruct I as [->|[->|[->| ->]]]; cbn; unfold Rdiv; rewrite ?Rplus_0_l, ?Rmult_1_r; nra. }
  exists (always (map (fun p => (RtoC (fst p), snd p)) sol)), w, 1, 1%nat, (units 2).
  eexists. split; [apply HK|]. split.
  - unfold solve_holes, always. unfold w. rewrite flat_limit by lra. cbn [bindR].
    rewrite (keeps 2 1 sol); [reflexivity|simpl; lia|]. unfold sol. intros p [<-|[]]; simpl; lra.
  - cbn [v_a v_b].
    assert (N : norm (q_x w) [1; 0] = sqrt (1 / 2) /\ norm (q_x w) [0; 1] = sqrt (1 / 2)).
    { unfold norm. change (q_x w) with [0; 1]. cbn [map]. rewrite !trapz01. split; f_equal; lra. }
    assert (P : 0 < sqrt (1 / 2)) by (apply sqrt_lt_R0; lra).
    destruct N as [N1 N2]. fold w.
    change (sort_raw (map to_raw (map (fun p : R * list C => (RtoC (fst p), snd p)) sol))) with
      [Raw (1 / 2) [1; 0] [0; 1]].
    cbn [map w_a list_max fold_left].
    cbn [w_a w_b to_raw snd c4 evens odds tl fst RtoC]. unfold scaled. rewrite N1, N2.
    destruct (Rlt_dec (1 / 100 * sqrt (1 / 2)) (sqrt (1 / 2))) as [_|K]; [|lra].
    change (q_x w) with [0; 1]. cbn [map]. rewrite !trapz01.
    assert (Q : sqrt (1 / 2) * sqrt (1 / 2) = 1 / 2) by (apply sqrt_sqrt; lra).
    assert (1 / sqrt (1 / 2) * (1 / sqrt (1 / 2)) = 2).
    { replace (1 / sqrt (1 / 2) * (1 / sqrt (1 / 2))) with (1 / (sqrt (1 / 2) * sqrt (1 / 2))) by (field; lra). rewrite Q. lra. }
    assert (0 / sqrt (1 / 2) = 0) as -> by (unfold Rdiv; ring). lra.
Qed.

(** C180: a heavy level below the barrier of the heavy holes counts as confined if the light
    holes have a deeper one. *)
Theorem C180_barrier_refuted : exists eigs w num v,
  eigs_ok eigs (hole_matrix w 0 true) 4 num (sigma w) /\ solve_holes eigs w 0 num num 0 true = Ok ([v], None) /\ heavy (q_x w) (v_a v) = true /\ v_e v < list_min (q_Vhh w).
Proof.
  pose (sol := [(- (7 / 2), c4 1 0 1 0)] : list (R * list C)).
  pose proof E01_pos as P.
  pose (w := flat 0 (-4 * E0 [0; 1]) 1 0 0).
  assert (HO : offset w = -4 * E0 [0; 1]).
  { unfold w, offset, flat. cbn [q_Vhh q_Vlh list_min fold_left]. rewrite !(Rmin_left _ _ (Rle_refl _)). apply Rmin_right. lra. }
  assert (HK : eigs_ok (always (map (fun p => (RtoC (fst p), snd p)) sol)) (hole_matrix w 0 true) 4 1 (sigma w)).
  { unfold eigs_ok, always, sol. cbn [map fst snd].
    constructor; [|constructor]; apply pair4; try (left; lra);
      intros i Hi; unfold w; rewrite !flat_matrix by lia; cbv zeta; fold w; rewrite HO;
      replace ((-4 * E0 [0; 1] - 0) / E0 [0; 1]) with (-4) by (field; lra);
      replace ((-4 * E0 [0; 1] - -4 * E0 [0; 1]) / E0 [0; 1]) with 0 by (field; lra);
      assert (I : (i = 0 \/ i = 1 \/ i = 2 \/ i = 3)%nat) by lia;
      destruct I as [->|[->|[->| ->]]]; cbn; unfold Rdiv; lra. }
  exists (always (map (fun p => (RtoC (fst p), snd p)) sol)), w, 1%nat.
  eexists. split; [apply HK|].
  assert (U : 0 = units 0) by (unfold units, Rdiv; ring).
  split; [|split].
  - unfold solve_holes, always. unfold w.
    pose proof (fun b o => flat_limit 0 b 1 0 0 0 o (Rle_refl 0)) as F. rewrite <- U in F. rewrite F. cbn [bindR].
    rewrite (keeps 0 1 sol); [reflexivity|simpl; lia|]. unfold sol. intros p [<-|[]]; simpl; lra.
  - cbn [v_a].
    change (sort_raw (map to_raw (map (fun p : R * list C => (RtoC (fst p), snd p)) sol))) with [Raw (- (7 / 2)) [1; 1] [0; 0]].
    cbn [map w_a list_max fold_left]. cbn [w_a w_b to_raw snd c4 evens odds tl fst RtoC]. fold w.
    apply heavy_scaled; (assert (N : norm (q_x w) [1; 1] = 1) by
      (unfold norm; change (q_x w) with [0; 1]; cbn [map]; rewrite trapz01; replace ((1 * 1 + 1 * 1) / 2) with 1 by lra; apply sqrt_1));
      rewrite N; lra.
  - cbn [v_e to_raw w_e fst snd RtoC]. fold w. rewrite HO. change (q_x w) with [0; 1]. unfold w, flat. cbn [q_Vhh list_min fold_left].
    rewrite Rmin_left by lra. lra.
Qed.

(** C180: the two blocks treat the same small second component differently (line 307 compares
    it with the first components). *)
Theorem C180_threshold_refuted : exists eigs w num quasi u l,
  (forall M M' n k s, eigs M n k s = eigs M' n k s) /\ solve_holes eigs w 0 num num quasi false = Ok ([u], Some [l]) /\ v_e u = v_e l /\ v_a u = v_a l /\ v_b u = [0; 0] /\ np_trapz (map (fun a => a * a) (v_b l)) (q_x w) = 1.
Proof.
  pose (sol := [(1 / 2, c4 1 (1 / 200) 1 (1 / 200))] : list (R * list C)).
  pose (w := flat 0 0 1 0 0).
  exists (always (map (fun p => (RtoC (fst p), snd p)) sol)), w, 1%nat, (units 2).
  eexists. eexists. split; [reflexivity|]. split; [|split; [|split; [|split]]].
  - unfold solve_holes, always. unfold w. rewrite flat_limit by lra. cbn [bindR].
    rewrite (keeps 2 1 sol); [reflexivity|simpl; lia|]. unfold sol. intros p [<-|[]]; simpl; lra.
  - reflexivity.
  - reflexivity.
  - cbn [v_b]. fold w.
    change (sort_raw (map to_raw (map (fun p : R * list C => (RtoC (fst p), snd p)) sol))) with
      [Raw (1 / 2) [1; 1] [1 / 200; 1 / 200]].
    cbn [map w_a list_max fold_left]. cbn [w_a w_b to_raw snd c4 evens odds tl fst RtoC].
    assert (N1 : norm (q_x w) [1; 1] = 1).
    { unfold norm. change (q_x w) with [0; 1]. cbn [map]. rewrite trapz01. replace ((1 * 1 + 1 * 1) / 2) with 1 by lra. apply sqrt_1. }
    assert (N2 : norm (q_x w) [1 / 200; 1 / 200] = 1 / 200).
    { unfold norm. change (q_x w) with [0; 1]. cbn [map]. rewrite trapz01.
      replace ((1 / 200 * (1 / 200) + 1 / 200 * (1 / 200)) / 2) with (1 / 200 * (1 / 200)) by lra. apply sqrt_square. lra. }
    unfold scaled. rewrite N1, N2. destruct (Rlt_dec (1 / 100 * 1) (1 / 200)); [lra|]. cbn [map]. now rewrite Rmult_0_r.
  - cbn [v_b]. fold w.
    change (map to_raw (map (fun p : R * list C => (RtoC (fst p), snd p)) sol)) with
      [Raw (1 / 2) [1; 1] [1 / 200; 1 / 200]].
    cbn [map w_b list_max fold_left]. cbn [w_a w_b to_raw snd c4 evens odds tl fst RtoC].
    assert (N2 : norm (q_x w) [1 / 200; 1 / 200] = 1 / 200).
    { unfold norm. change (q_x w) with [0; 1]. cbn [map]. rewrite trapz01.
      replace ((1 / 200 * (1 / 200) + 1 / 200 * (1 / 200)) / 2) with (1 / 200 * (1 / 200)) by lra. apply sqrt_square. lra. }
    unfold scaled. rewrite N2. destruct (Rlt_dec (1 / 100 * (1 / 200)) (1 / 200)); [|lra].
    change (q_x w) with [0; 1]. cbn [map]. rewrite trapz01. lra.
Qed.

(** One electron level and one heavy hole level. *)
Definition toy : solver := fun M n _ _ =>
  if Nat.eqb n 2 then [(RtoC (M 0%nat 0%nat + M 0%nat 1%nat), [RtoC 1; RtoC 1])] else [(RtoC (1 / 2), c4 1 0 1 0)].

Lemma toy_electron : par_matrix 0 [0; 1] [0; 0] [electron_mass; electron_mass] 0%nat 0%nat +
  par_matrix 0 [0; 1] [0; 0] [electron_mass; electron_mass] 0%nat 1%nat = 1 / 2.
Proof.
  unfold par_matrix, dia, par_z, grad, mass_a, mass_b, mass_c, par_m, par_fe. rewrite !map_length. cbn [length].
  rewrite max01. pose proof electron_mass_pos. cbn.
  rewrite !Rmin_left by lra.
  replace (electron_mass / electron_mass) with 1 by (field; lra). field. pose proof E01_pos. lra.
Qed.

Lemma toy_edge (kpoints : nat) : kpoints = 1%nat ->
  exists s, solve_bandstructure toy (flat 0 0 1 0 0) 1 kpoints 1 (units 2) true = Ok s /\ length (s_Ee s) = 1%nat /\ length (s_Ehh s) = 1%nat /\ s_Elh s = [].
Proof.
  intros ->. pose proof E01_pos as P. pose proof q_pos as Q.
  unfold solve_bandstructure, solve_kpoint, solve_electrons, solve_holes, toy.
  change (length (q_Ve (flat 0 0 1 0 0))) with 2%nat. change (length (q_x (flat 0 0 1 0 0))) with 2%nat.
  change (Nat.eqb 2 2) with true. change (Nat.eqb (2 * 2) 2) with false. cbv beta iota.
  change (q_x (flat 0 0 1 0 0)) with [0; 1]. change (q_Ve (flat 0 0 1 0 0)) with [0; 0].
  change (q_me (flat 0 0 1 0 0)) with [electron_mass; electron_mass]. rewrite toy_electron.
  rewrite flat_limit by lra.
  assert (HL : limit (list_max (par_fe [0; 1] [0; 0]) + units 2 * q / E0 [0; 1]) (units 2) [(RtoC (1 / 2), [RtoC 1; RtoC 1])] = Ok (RtoC 2)).
  { unfold limit. destruct (Rlt_dec (units 2) 0) as [K|_]; [pose proof (units_nonneg 2 ltac:(lra)); lra|].
    do 2 f_equal. unfold par_fe. cbn [map list_min list_max fold_left]. rewrite Rmin_left by lra.
    replace ((0 - 0) / E0 [0; 1]) with 0 by (field; lra). rewrite Rmax_left by lra. unfold units. field. split; lra. }
  rewrite HL. cbn [bindR].
  change [(RtoC (1 / 2), [RtoC 1; RtoC 1])] with (map (fun p : R * list C => (RtoC (fst p), snd p)) [(1 / 2, [RtoC 1; RtoC 1])]).
  change [(RtoC (1 / 2), c4 1 0 1 0)] with (map (fun p : R * list C => (RtoC (fst p), snd p)) [(1 / 2, c4 1 0 1 0)]).
  rewrite !keeps by (simpl; try lia; intros p [<-|[]]; simpl; lra).
  cbn [bindR fst snd]. change (tl (linspace 0 1 1)) with (@nil R). cbn [mapRR bindR].
  eexists. split; [reflexivity|]. cbn [s_Ee s_Ehh s_Elh map k_u k_e length seq].
  assert (N : norm [0; 1] [1; 1] = 1).
  { unfold norm. cbn [map]. rewrite trapz01. replace ((1 * 1 + 1 * 1) / 2) with 1 by lra. apply sqrt_1. }
  assert (HH : heavy [0; 1] (scaled (1 / 100 * norm [0; 1] [1; 1]) (norm [0; 1] [1; 1]) [1; 1]) = true).
  { apply heavy_scaled; rewrite N; lra. }
  unfold upper_of. cbn [k_u]. unfold normal_upper.
  cbn [map]. change (sort_raw [to_raw (RtoC (fst (1 / 2, c4 1 0 1 0)), snd (1 / 2, c4 1 0 1 0))]) with
      [Raw (1 / 2) [1; 1] [0; 0]].
  cbn [map w_a w_b w_e v_a length seq list_max fold_left filter nth]. rewrite HH. cbn [Bool.eqb map app length].
  split; [reflexivity|]. split; reflexivity.
Qed.

(** C180: schrodinger raises an error when no light hole is confined, although the levels of
    the others are known. *)
Theorem C180_no_light_hole_refuted : exists eigs w num kpoints krange quasi s,
  eigs_ok eigs (hole_matrix w 0 true) 4 num (sigma w) /\ solve_bandstructure eigs w num kpoints krange quasi true = Ok s /\ length (s_Ee s) = 1%nat /\ length (s_Ehh s) = 1%nat /\ schrodinger_kp eigs w num kpoints krange quasi 0 true = Err IndexError.
Proof.
  destruct (toy_edge 1 eq_refl) as (s & Hs & H1 & H2 & H3).
  exists toy, (flat 0 0 1 0 0), 1%nat, 1%nat, 1, (units 2), s.
  assert (HO : offset (flat 0 0 1 0 0) = 0).
  { unfold offset, flat. cbn [q_Vhh q_Vlh list_min fold_left]. rewrite !Rmin_left by lra. reflexivity. }
  split; [|split; [exact Hs|split; [exact H1|split; [exact H2|]]]].
  - unfold eigs_ok, toy. change (Nat.eqb 4 2) with false. cbv beta iota. constructor; [|constructor].
    cbn [fst snd]. apply pair4; try (left; lra);
      intros i Hi; rewrite !flat_matrix by lia; cbv zeta; rewrite HO;
      assert (I : (i = 0 \/ i = 1 \/ i = 2 \/ i = 3)%nat) by lia;
      destruct I as [->|[->|[->| ->]]]; cbn; unfold Rdiv; lra.
  - unfold schrodinger_kp. destruct (Req_EM_T 0 0) as [_|K]; [|lra]. rewrite Hs. cbn [bindR].
    pose proof (C180_edges _ _ _ _ _ _ _ _ Hs) as E. destruct (band_edge s) as [d|e].
    + destruct E as (_ & _ & K & _). contradiction.
    + destruct E as [-> _]. reflexivity.
Qed.

(** The hypotheses of the theorems above are met by this well. *)
Example C180_flat_ex : let w := flat 0 0 1 0 0 in
  q_Vhh w <> [] /\ q_Vlh w <> [] /\ 0 < list_max (q_x w) /\ (forall M n s, (length (toy M n 1%nat s) <= 1)%nat) /\ exists s, solve_bandstructure toy w 1 1 1 (units 2) true = Ok s /\ length (s_Ee s) = 1%nat.
Proof.
  cbv zeta. split; [discriminate|]. split; [discriminate|]. split; [cbn [q_x flat]; rewrite max01; lra|]. split.
  - intros M n s. unfold toy. destruct (Nat.eqb n 2); simpl; lia.
  - destruct (toy_edge 1 eq_refl) as (s & Hs & H1 & _). exists s. auto.
Qed.

(** C180, second part: sorting into bands, the walk over the wave vectors and the results at
    k = 0. *)
From Coq Require Import Reals ZArith String List Bool Lia Lra Permutation.
From Coquelicot Require Import Coquelicot.
From Coq Require Import List.
From Verif Require Import Common PhysConst InterpModel NpModel TmmModel DetBalModel DetBalProps SchrodModel LinAlg
  SchrodProps SchrodProps2 EllProps BandQwModel BandQwProps.
Import ListNotations.
Open Scope R_scope.
Open Scope list_scope.

(** * Sorting *)

Lemma filter_both {A} (f : A -> bool) l :
  (length (filter (fun x => Bool.eqb (f x) true) l) + length (filter (fun x => Bool.eqb (f x) false) l) = length l)%nat.
Proof. induction l as [|a l IH]; simpl; [reflexivity|]. destruct (f a); simpl; lia. Qed.

Lemma combine_map {A B D} (f : A -> B) (g : A -> D) l : combine (map f l) (map g l) = map (fun x => (f x, g x)) l.
Proof. induction l as [|a l IH]; simpl; [reflexivity|]. now rewrite IH. Qed.
Lemma combine_app {A B} (a a' : list A) (b b' : list B) : length a = length b ->
  combine (a ++ a') (b ++ b') = combine a b ++ combine a' b'.
Proof.
  revert b. induction a as [|x a IH]; intros [|y b] H; try discriminate H; [reflexivity|]. simpl. rewrite IH; [reflexivity|].
  now injection H.
Qed.
Lemma nth_map {A B} (f : A -> B) l i d d' : (i < length l)%nat -> nth i (map f l) d = f (nth i l d').
Proof. intro H. rewrite (nth_indep _ d (f d')) by (rewrite map_length; exact H). apply map_nth. Qed.

(** What the arrays say of level [j] of a k point: its energy or infinity, a component or
    zeros. *)
Definition energy_of (x : option level) : option R := match x with Some v => Some (v_e v) | None => None end.
Definition wave_of (nz : nat) (f : level -> list R) (x : option level) : list R :=
  match x with Some v => f v | None => repeat 0 nz end.
(** A heavy hole band: level [j] of the upper block whose first component at the first k
    point is not small, or of the lower block with its second. *)
Definition is_band (z : list R) (b0 : kpoint) (bands : list kpoint) (sym kind : bool)
  (ep : list (option R) * list (list R)) : Prop :=
  (exists j v, nth_error (k_u b0) j = Some v /\ heavy z (v_a v) = kind /\
     fst ep = map (fun b => energy_of (nth_error (k_u b) j)) bands /\
     snd ep = map (fun b => wave_of (length z) (if kind then v_a else v_b) (nth_error (k_u b) j)) bands) \/
  (sym = false /\ exists j v, nth_error (lower_levels b0) j = Some v /\ heavy z (v_b v) = kind /\
     fst ep = map (fun b => energy_of (nth_error (lower_levels b) j)) bands /\
     snd ep = map (fun b => wave_of (length z) (if kind then v_b else v_a) (nth_error (lower_levels b) j)) bands).

Lemma select_in (z : list R) (f : level -> list R) (ls : list level) kind j :
  In j (filter (fun j => Bool.eqb (heavy z (nth j (map f ls) [])) kind) (seq 0 (length ls))) <->
  exists v, nth_error ls j = Some v /\ heavy z (f v) = kind.
Proof.
  rewrite filter_In, in_seq. split.
  - intros [Hj Hh]. destruct (nth_error ls j) as [v|] eqn:Ej; [|apply nth_error_None in Ej; lia].
    exists v. split; [reflexivity|]. rewrite (nth_map f ls j [] v) in Hh by lia.
    rewrite (nth_error_nth _ _ v Ej) in Hh. apply Bool.eqb_prop. exact Hh.
  - intros (v & Ej & Hh). assert (j < length ls)%nat by (apply nth_error_Some; congruence). split; [lia|].
    rewrite (nth_map f ls j [] v) by lia. rewrite (nth_error_nth _ _ v Ej), Hh. apply Bool.eqb_reflx.
Qed.

(** C180: every electron level found at k = 0 gives one row, in order, with the energy and
    wave function of the level of the same number at every k point. *)
Theorem C180_electron_bands : forall z b0 bs sym r, band_sorting z (b0 :: bs) sym = Ok r ->
  s_kt r = map k_kt (b0 :: bs) /\ s_sym r = sym /\
  length (s_Ee r) = length (k_e b0) /\ length (s_pe r) = length (k_e b0) /\
  forall j, (j < length (k_e b0))%nat ->
    nth j (s_Ee r) [] = map (fun b => match nth_error (k_e b) j with Some x => Some (fst x) | None => None end) (b0 :: bs) /\
    nth j (s_pe r) [] = map (fun b => match nth_error (k_e b) j with Some x => snd x | None => repeat 0 (length z) end) (b0 :: bs).
Proof.
  intros z b0 bs sym r H. unfold band_sorting in H.
  destruct (negb sym && _)%bool; [discriminate H|]. inversion H; subst. cbn [s_kt s_Ee s_pe s_sym].
  rewrite !map_length, seq_length. split; [reflexivity|]. split; [reflexivity|]. split; [reflexivity|]. split; [reflexivity|].
  intros j Hj. rewrite !(nth_map _ _ j [] O) by (rewrite seq_length; exact Hj). rewrite seq_nth by exact Hj.
  split; reflexivity.
Qed.

(** C180: every hole level found at k = 0 gives one band, heavy or light, and there are no
    other bands. *)
Theorem C180_hole_bands : forall z b0 bs sym r, band_sorting z (b0 :: bs) sym = Ok r ->
  length (s_Ehh r) = length (s_phh r) /\ length (s_Elh r) = length (s_plh r) /\
  (length (s_Ehh r) + length (s_Elh r) =
     length (k_u b0) + (if sym then 0 else length (lower_levels b0)))%nat /\
  (forall ep, In ep (combine (s_Ehh r) (s_phh r)) <-> is_band z b0 (b0 :: bs) sym true ep) /\
  (forall ep, In ep (combine (s_Elh r) (s_plh r)) <-> is_band z b0 (b0 :: bs) sym false ep).
Proof.
  intros z b0 bs sym r H. unfold band_sorting in H.
  destruct (negb sym && _)%bool; [discriminate H|]. inversion H; subst. cbn [s_Ehh s_phh s_Elh s_plh]. clear H.
  set (bands := b0 :: bs) in *.
  rewrite !app_length, !map_length. split; [reflexivity|]. split; [reflexivity|]. split.
  - pose proof (filter_both (fun j => heavy z (nth j (map v_a (k_u b0)) [])) (seq 0 (length (k_u b0)))) as F1.
    pose proof (filter_both (fun j => heavy z (nth j (map v_b (lower_levels b0)) [])) (seq 0 (length (lower_levels b0)))) as F2.
    rewrite seq_length in F1, F2. unfold upper_of, lower_of. destruct sym; cbn [length]; lia.
  - assert (G : forall kind fa fb ep,
      In ep (combine (map (energies v_e k_u bands) (upper_of z b0 kind) ++ map (energies v_e lower_levels bands) (if sym then [] else lower_of z b0 kind))
               (map (waves fa k_u (length z) bands) (upper_of z b0 kind) ++ map (waves fb lower_levels (length z) bands) (if sym then [] else lower_of z b0 kind)))
      <->
      ((exists j v, nth_error (k_u b0) j = Some v /\ heavy z (v_a v) = kind /\
         fst ep = map (fun b => energy_of (nth_error (k_u b) j)) bands /\
         snd ep = map (fun b => wave_of (length z) fa (nth_error (k_u b) j)) bands) \/
       (sym = false /\ exists j v, nth_error (lower_levels b0) j = Some v /\ heavy z (v_b v) = kind /\
         fst ep = map (fun b => energy_of (nth_error (lower_levels b) j)) bands /\
         snd ep = map (fun b => wave_of (length z) fb (nth_error (lower_levels b) j)) bands))).
    { intros kind fa fb ep. rewrite combine_app by now rewrite !map_length. rewrite !combine_map, in_app_iff, !in_map_iff.
      assert (ET : forall e p (x y : list (option R) * list (list R)), x = (e, p) -> (x = y <-> fst y = e /\ snd y = p)).
      { intros e p x [y1 y2] ->. simpl. split; [intro K; inversion K; auto|intros [-> ->]; reflexivity]. }
      split.
      - intros [(j & He & Hj)|(j & He & Hj)].
        + left. apply select_in in Hj. destruct Hj as (v & Hv & Hh). exists j, v. split; [exact Hv|]. split; [exact Hh|].
          subst ep. split; reflexivity.
        + right. destruct sym; [contradiction|]. split; [reflexivity|]. apply select_in in Hj. destruct Hj as (v & Hv & Hh).
          exists j, v. split; [exact Hv|]. split; [exact Hh|]. subst ep. split; reflexivity.
      - intros [(j & v & Hv & Hh & H1 & H2)|(-> & j & v & Hv & Hh & H1 & H2)].
        + left. exists j. split; [destruct ep; simpl in *; subst; reflexivity|]. apply select_in. exists v. auto.
        + right. exists j. split; [destruct ep; simpl in *; subst; reflexivity|]. apply select_in. exists v. auto. }
    split; intro ep; [exact (G true v_a v_b ep)|exact (G false v_b v_a ep)].
Qed.

(** * The walk over the wave vectors *)

Lemma bandstructure_inv eigs w num kpoints krange quasi sym s :
  solve_bandstructure eigs w num kpoints krange quasi sym = Ok s ->
  exists b0 bs, solve_kpoint eigs w 0 num num num quasi quasi sym = Ok b0 /\
    mapRR (fun kt => solve_kpoint eigs w kt num (length (k_e b0)) (length (k_u b0)) (- (1 / 10)) (1 / 10) sym)
      (tl (linspace 0 krange kpoints)) = Ok bs /\ band_sorting (q_x w) (b0 :: bs) sym = Ok s.
Proof.
  intro H. unfold solve_bandstructure in H.
  destruct (solve_kpoint eigs w 0 num num num quasi quasi sym) as [b0|] eqn:E0'; [|discriminate H]. cbn [bindR] in H.
  destruct (mapRR _ _) as [bs|] eqn:E1 in H; [|discriminate H]. cbn [bindR] in H.
  exists b0, bs. auto.
Qed.
Lemma solve_kpoint_inv eigs w kt num ne nh qe qh sym b : solve_kpoint eigs w kt num ne nh qe qh sym = Ok b ->
  k_kt b = kt /\ solve_electrons eigs w kt num ne qe = Ok (k_e b) /\ solve_holes eigs w kt num nh qh sym = Ok (k_u b, k_l b).
Proof.
  unfold solve_kpoint. destruct (solve_electrons eigs w kt num ne qe) as [e|]; [|discriminate]. cbn [bindR].
  destruct (solve_holes eigs w kt num nh qh sym) as [[u l]|]; [|discriminate]. cbn [bindR fst snd]. intro H. inversion H; subst.
  split; [reflexivity|]. split; reflexivity.
Qed.

(** C180: the bands are given at kpoints wave vectors, equally spaced from 0 to krange. *)
Theorem C180_wave_vectors : forall eigs w num kpoints krange quasi sym s, (1 <= kpoints)%nat ->
  solve_bandstructure eigs w num kpoints krange quasi sym = Ok s ->
  length (s_kt s) = kpoints /\
  forall i, (i < kpoints)%nat -> nth i (s_kt s) 0 = krange * INR i / INR (kpoints - 1).
Proof.
  intros eigs w num kpoints krange quasi sym s Hk H. apply bandstructure_inv in H.
  destruct H as (b0 & bs & H0 & H1 & H2). apply C180_electron_bands in H2. destruct H2 as [H2 _].
  assert (E : s_kt s = linspace 0 krange kpoints).
  { rewrite H2. cbn [map]. apply solve_kpoint_inv in H0. destruct H0 as [-> _].
    assert (M : map k_kt bs = tl (linspace 0 krange kpoints)).
    { revert H1. generalize (tl (linspace 0 krange kpoints)). clear. intro l. revert bs.
      induction l as [|k l IH]; intros bs H; cbn [mapRR] in H; [inversion H; reflexivity|].
      destruct (solve_kpoint eigs w k num _ _ _ _ sym) as [b|] eqn:Eb; [|discriminate H]. cbn [bindR] in H.
      destruct (mapRR _ l) as [ys|] eqn:El in H; [|discriminate H]. cbn [bindR] in H. inversion H; subst.
      apply solve_kpoint_inv in Eb. destruct Eb as [Eb _]. cbn [map]. rewrite Eb, (IH _ El). reflexivity. }
    rewrite M. destruct kpoints as [|n]; [lia|]. unfold linspace. cbn [seq map tl]. f_equal.
    simpl INR. unfold Rdiv. ring. }
  rewrite E, linspace_length. split; [reflexivity|]. intros i Hi. rewrite linspace_nth by exact Hi. unfold Rdiv. ring.
Qed.

(** C180: levels at other wave vectors than 0 are asked for with a negative [quasiconfined],
    which loses the highest: when all the [num] levels asked for are confined at k = 0, the
    last electron band is infinite at every other wave vector. *)
Theorem C180_top_band_refuted : forall eigs w num kpoints krange quasi sym s,
  (forall M n s', (length (eigs M n num s') <= num)%nat) ->
  solve_bandstructure eigs w num kpoints krange quasi sym = Ok s ->
  length (s_Ee s) = num -> (1 <= num)%nat ->
  forall i, (1 <= i < kpoints)%nat -> nth i (nth (num - 1) (s_Ee s) []) (Some 0) = None.
Proof.
  intros eigs w num kpoints krange quasi sym s Hn H HL Hnum i Hi. apply bandstructure_inv in H.
  destruct H as (b0 & bs & H0 & H1 & H2). apply C180_electron_bands in H2.
  destruct H2 as (_ & _ & HE & _ & HB). rewrite HL in HE. destruct (HB (num - 1)%nat ltac:(lia)) as [HB' _]. rewrite HB'.
  clear HB HB'. destruct i as [|i]; [lia|]. cbn [map nth].
  destruct (mapRR_nth _ _ _ H1) as [L N].
  assert (LT : length (tl (linspace 0 krange kpoints)) = (kpoints - 1)%nat).
  { pose proof (linspace_length 0 krange kpoints) as LL. destruct (linspace 0 krange kpoints); simpl in *; lia. }
  assert (Hb : (i < length bs)%nat) by lia.
  rewrite (nth_map _ bs i (Some 0) b0 Hb).
  destruct (nth_error bs i) as [b|] eqn:Eb; [|apply nth_error_None in Eb; lia].
  rewrite (nth_error_nth _ _ b0 Eb).
  assert (K : exists kt, solve_kpoint eigs w kt num (length (k_e b0)) (length (k_u b0)) (- (1 / 10)) (1 / 10) sym = Ok b).
  { destruct (nth_error (tl (linspace 0 krange kpoints)) i) as [kt|] eqn:Ek; [|apply nth_error_None in Ek; lia].
    exists kt. destruct (N i kt Ek) as (b' & Hb' & Hs). congruence. }
  destruct K as [kt K]. apply solve_kpoint_inv in K. destruct K as (_ & K & _).
  unfold solve_electrons in K.
  set (out := eigs (par_matrix kt (q_x w) (q_Ve w) (q_me w)) (length (q_Ve w)) num 0) in K.
  assert (HO : (length out <= num)%nat) by apply Hn.
  unfold limit in K. destruct (Rlt_dec (- (1 / 10)) 0); [|lra].
  destruct out as [|p0 out'] eqn:EO; [discriminate K|]. rewrite <- EO in *. cbn [bindR] in K.
  pose proof (f_equal (fun r => match r with Ok x => x | Err _ => [] end) K) as K1. cbv beta iota in K1. clear K.
  enough (length (k_e b) < num)%nat by (assert (nth_error (k_e b) (num - 1) = None) as -> by (apply nth_error_None; lia); reflexivity).
  rewrite <- K1, map_length. unfold confined.
  assert (NE : map fst out <> []) by (rewrite EO; discriminate).
  pose proof (cmax_in (map fst out) NE) as Hin. generalize dependent (cmax (map fst out)). intros mx _ Hin.
  apply in_map_iff in Hin. destruct Hin as (p & Hp & Hin).
  assert (G : forall n l, (In p (firstn n l) -> (length (filter (fun e => cltc (fst e) mx) (firstn n l)) < length (firstn n l))%nat)).
  { clear - Hp. induction n as [|n IH]; intros [|b l]; simpl; try contradiction.
    intros [->|Hin]; [rewrite Hp, cltc_irrefl; pose proof (filter_le (fun e : C * list C => cltc (fst e) mx) (firstn n l)); lia|].
    specialize (IH l Hin). destruct (cltc (fst b) mx); simpl; lia. }
  rewrite firstn_all2 by lia. specialize (G (length out) out). rewrite firstn_all in G. specialize (G Hin). exact (Nat.lt_le_trans _ _ _ G HO).
Qed.

(** * The results at k = 0 *)

Lemma first_k_ok {A} (rows : list (list A)) d : (forall r, In r rows -> r <> []) -> rows <> [] ->
  first_k rows = Ok (map (fun r => nth 0 r d) rows).
Proof.
  intros H Hn. unfold first_k. destruct rows as [|r0 rows]; [congruence|]. clear Hn.
  generalize dependent (r0 :: rows). clear. induction l as [|r l IH]; intro H; [reflexivity|]. cbn [mapRR map].
  destruct r as [|a r]; [exfalso; apply (H []); [left; reflexivity|reflexivity]|]. cbn [bindR].
  rewrite IH by (intros r' Hr'; apply H; right; exact Hr'). reflexivity.
Qed.

Lemma rows_full z b0 bs sym r : band_sorting z (b0 :: bs) sym = Ok r ->
  (forall x, In x (s_Ee r) \/ In x (s_Ehh r) \/ In x (s_Elh r) -> x <> []) /\
  (forall x, In x (s_pe r) \/ In x (s_phh r) \/ In x (s_plh r) -> x <> []).
Proof.
  intro H. unfold band_sorting in H. destruct (negb sym && _)%bool; [discriminate H|]. inversion H; subst.
  cbn [s_Ee s_Ehh s_Elh s_pe s_phh s_plh]. rewrite !in_app_iff || idtac.
  split; intros x Hx; rewrite ?in_app_iff in Hx;
    repeat match goal with K : _ \/ _ |- _ => destruct K as [K|K] end;
    apply in_map_iff in Hx; destruct Hx as (j & <- & _); discriminate.
Qed.

(** C180: the results at k = 0 are the first entries of the bands; there are none unless
    every kind of carrier has a level. *)
Theorem C180_edges : forall eigs w num kpoints krange quasi sym s,
  solve_bandstructure eigs w num kpoints krange quasi sym = Ok s ->
  match band_edge s with
  | Ok d => s_Ee s <> [] /\ s_Ehh s <> [] /\ s_Elh s <> [] /\
      d_Ee d = map (fun e => nth 0 e None) (s_Ee s) /\ d_Ehh d = map (fun e => nth 0 e None) (s_Ehh s) /\
      d_Elh d = map (fun e => nth 0 e None) (s_Elh s) /\
      d_pe d = map (fun p => nth 0 p []) (s_pe s) /\ d_phh d = map (fun p => nth 0 p []) (s_phh s) /\
      d_plh d = map (fun p => nth 0 p []) (s_plh s)
  | Err e => e = IndexError /\ (s_Ee s = [] \/ s_Ehh s = [] \/ s_Elh s = [])
  end.
Proof.
  intros eigs w num kpoints krange quasi sym s H. apply bandstructure_inv in H.
  destruct H as (b0 & bs & _ & _ & H). destruct (rows_full _ _ _ _ _ H) as [F1 F2].
  destruct (C180_hole_bands _ _ _ _ _ H) as (L1 & L2 & _). destruct (C180_electron_bands _ _ _ _ _ H) as (_ & _ & L3 & L4 & _).
  rewrite <- L4 in L3.
  assert (Z : forall A B (a : list A) (b : list B), length a = length b -> (a = [] <-> b = [])).
  { intros A B [|x a] [|y b] K; simpl in K; split; congruence || (intros; lia). }
  pose proof (Z _ _ _ _ L1) as Z1. pose proof (Z _ _ _ _ L2) as Z2. pose proof (Z _ _ _ _ L3) as Z3.
  unfold band_edge.
  destruct (s_pe s) as [|p1 pe] eqn:E1; [cbn; intuition|]. rewrite <- E1 in *.
  rewrite (first_k_ok (s_pe s) []) by (auto || congruence). cbn [bindR].
  destruct (s_phh s) as [|p2 phh] eqn:E2; [cbn; intuition|]. rewrite <- E2 in *.
  rewrite (first_k_ok (s_phh s) []) by (auto || congruence). cbn [bindR].
  destruct (s_plh s) as [|p3 plh] eqn:E3; [cbn; intuition|]. rewrite <- E3 in *.
  rewrite (first_k_ok (s_plh s) []) by (auto || congruence). cbn [bindR].
  assert (N1 : s_Ee s <> []) by (rewrite Z3; congruence). assert (N2 : s_Ehh s <> []) by (rewrite Z1; congruence).
  assert (N3 : s_Elh s <> []) by (rewrite Z2; congruence).
  rewrite (first_k_ok (s_Ee s) None) by auto. cbn [bindR].
  rewrite (first_k_ok (s_Ehh s) None) by auto. cbn [bindR].
  rewrite (first_k_ok (s_Elh s) None) by auto. cbn [bindR].
  cbn [d_Ee d_Ehh d_Elh d_pe d_phh d_plh]. repeat split; assumption.
Qed.

(** C180: with a field both blocks are solved, whatever was said of the symmetry. *)
Theorem C180_field : forall eigs w num kpoints krange quasi F sym r, F <> 0 ->
  schrodinger_kp eigs w num kpoints krange quasi F sym = Ok r ->
  s_sym (snd r) = false /\ schrodinger_kp eigs w num kpoints krange quasi F (negb sym) = Ok r.
Proof.
  intros eigs w num kpoints krange quasi F sym r HF H. unfold schrodinger_kp in *.
  destruct (Req_EM_T F 0); [contradiction|]. split; [|exact H].
  destruct (solve_bandstructure eigs w num kpoints krange quasi false) as [s|] eqn:Es; [|discriminate H]. cbn [bindR] in H.
  destruct (band_edge s) as [d|]; [|discriminate H]. cbn [bindR] in H. inversion H; subst. cbn [snd].
  apply bandstructure_inv in Es. destruct Es as (b0 & bs & _ & _ & Hb). apply C180_electron_bands in Hb. tauto.
Qed.

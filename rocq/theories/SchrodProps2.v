(** Properties of the quantum-well solvers at finite in-plane wave vector. *)
From Coq Require Import Reals ZArith Lra Lia String List Bool Permutation Sorted Psatz.
From Coquelicot Require Import Coquelicot.
From Coq Require Import List.
From Verif Require Import Common PhysConst InterpModel InterpProps NpModel LinAlg SchrodModel SchrodProps.
Import ListNotations.
Open Scope R_scope.
Open Scope list_scope.

(** * C95: the parabolic solver *)

(** The potential an electron of in-plane wave vector [kt] feels. *)
Definition subband (kt : R) (fe me : list R) : list R :=
  map (fun j => at_ fe j + hbar ^ 2 * kt ^ 2 / (2 * at_ me j)) (seq 0 (length fe)).

Lemma at_map_div l s i : at_ (map (fun x => x / s) l) i = at_ l i / s.
Proof. rewrite <- (map_nth (fun x => x / s)). f_equal. unfold Rdiv; ring. Qed.
Lemma grad_scale z s i : grad (map (fun x => x / s) z) i = grad z i / s.
Proof.
  unfold grad. rewrite map_length, !at_map_div.
  destruct (Nat.eqb i 0); [unfold Rdiv; ring|]. destruct (Nat.eqb i (length z - 1)); unfold Rdiv; ring.
Qed.

Lemma par_matrix_scaled kt z fe me i j : mesh_ok fe z me -> 0 < list_max z ->
  (i < length fe)%nat -> (j < length fe)%nat ->
  par_matrix kt z fe me i j * E0 z + (if Nat.eqb i j then list_min fe else 0) =
  hamiltonian (subband kt fe me) z me false i j.
Proof.
  intros H HL Hi Hj. pose proof H as (H2 & Hz & Hm & _).
  assert (HS : length (subband kt fe me) = length fe) by (unfold subband; rewrite map_length, seq_length; reflexivity).
  unfold hamiltonian, par_matrix, dia. rewrite HS.
  destruct (Nat.ltb_spec i (length fe)); [|lia]. destruct (Nat.ltb_spec j (length fe)); [|lia].
  unfold diagonals. cbn [andb fold_right fst snd]. rewrite !at_map_opp. unfold lower, upper, axis. rewrite HS.
  rewrite !at_map_seq by auto. unfold par_z. rewrite grad_scale.
  pose proof (grad_pos fe z me j H Hj) as G. pose proof hbar_pos as Hh. pose proof electron_mass_pos as Hm0.
  assert (Pm : forall k, (k < length fe)%nat -> 0 < at_ me k).
  { intros k Hk. destruct H as (_ & _ & _ & _ & Hp). apply Hp, nth_In. lia. }
  assert (Ha : mass_a (par_m me) j = mass_a me j / electron_mass) by (apply at_map_div).
  assert (Hb : mass_b (par_m me) j = mass_b me j / electron_mass) by (apply at_map_div).
  assert (Hc : mass_c (par_m me) j = mass_c me j / electron_mass).
  { unfold mass_c. unfold par_m at 1. rewrite map_length. destruct (Nat.eqb j (length me - 1)); apply at_map_div. }
  rewrite Ha, Hb, Hc.
  assert (Qa : 0 < mass_a me j) by (apply Pm; lia). assert (Qb : 0 < mass_b me j) by (apply Pm; lia).
  assert (Qc : 0 < mass_c me j) by (unfold mass_c; destruct (Nat.eqb_spec j (length me - 1)); apply Pm; lia).
  assert (Qj : mass_b me j = at_ me j) by reflexivity.
  assert (HF : at_ (par_fe z fe) j = (at_ fe j - list_min fe) / E0 z).
  { unfold par_fe. rewrite (nth_indep _ 0 ((0 - list_min fe) / E0 z)) by (rewrite map_length; exact Hj).
    rewrite (map_nth (fun f => (f - list_min fe) / E0 z)). reflexivity. }
  assert (HV : at_ (subband kt fe me) j = at_ fe j + hbar ^ 2 * kt ^ 2 / (2 * at_ me j)).
  { unfold subband. rewrite at_map_seq by exact Hj. reflexivity. }
  rewrite HF, HV, <- Qj. clear Ha Hb Hc HF HV Qj.
  set (a := mass_a me j) in *. set (b := mass_b me j) in *. set (d := mass_c me j) in *. set (g := grad z j) in *.
  unfold E0. set (L := list_max z) in *. set (m0 := electron_mass) in *. set (e := hbar) in *.
  set (f := at_ fe j). set (f0 := list_min fe). clearbody a b d g L m0 e f f0.
  destruct (Z.eqb_spec (Z.of_nat j - Z.of_nat i) (-1)); destruct (Z.eqb_spec (Z.of_nat j - Z.of_nat i) 0);
  destruct (Z.eqb_spec (Z.of_nat j - Z.of_nat i) 1); destruct (Nat.eqb_spec i j); try lia;
    try (field; repeat split; lra); ring.
Qed.

Lemma cmax_in l : l <> [] -> In (cmax l) l.
Proof.
  destruct l as [|a l]; [congruence|]. intros _. simpl.
  match goal with |- context [fold_left ?f l a] => set (F := f) end.
  assert (G : forall l a, fold_left F l a = a \/ In (fold_left F l a) l).
  { clear. induction l as [|b l IH]; intro a; simpl; [auto|].
    destruct (IH (F a b)) as [E|E]; [|auto]. rewrite E. unfold F.
    destruct (Rlt_dec (fst a) (fst b)); [auto|]. destruct (Req_EM_T (fst a) (fst b)); [|auto].
    destruct (Rlt_dec (snd a) (snd b)); auto. }
  destruct (G l a) as [E|E]; [left; symmetry; exact E|right; exact E].
Qed.
Lemma cltc_irrefl e : cltc e e = false.
Proof.
  unfold cltc. destruct (Rlt_dec (fst e) (fst e)); [lra|]. destruct (Req_EM_T (fst e) (fst e)); [|reflexivity].
  destruct (Rlt_dec (snd e) (snd e)); [lra|reflexivity].
Qed.

Lemma filter_le {A} (f : A -> bool) l : (length (filter f l) <= length l)%nat.
Proof. induction l as [|a l IH]; simpl; [lia|]. destruct (f a); simpl; lia. Qed.

Lemma E0_pos z : 0 < list_max z -> 0 < E0 z.
Proof.
  intro H. unfold E0. pose proof hbar_pos. pose proof electron_mass_pos.
  apply Rdiv_lt_0_compat; [apply pow_lt; assumption|]. apply Rmult_lt_0_compat; [assumption|apply pow_lt; assumption].
Qed.

(** C95: every energy returned is a level of the potential that includes the in-plane
    kinetic energy, on any mesh; it is not below its bottom and, unless [quasiconfined] is
    negative, below the top of the potential plus [quasiconfined]. *)
Theorem C95_parabolic_levels : forall eigs kt z fe me num0 num1 quasi E,
  mesh_ok fe z me -> 0 < list_max z ->
  eigs_ok eigs (par_matrix kt z fe me) (length fe) num0 0 ->
  parabolic eigs kt z fe me num0 num1 quasi = Ok E ->
  (length E <= num1)%nat /\
  Forall (fun e =>
    (exists v, eigenpair (length fe) (fun i j => RtoC (hamiltonian (subband kt fe me) z me false i j)) (RtoC e) v) /\
    list_min (subband kt fe me) <= e /\ (0 <= quasi -> e < list_max fe + quasi * q)) E.
Proof.
  intros eigs kt z fe me num0 num1 quasi E H HL Hs HE. unfold parabolic in HE. unfold eigs_ok in Hs.
  set (out := eigs (par_matrix kt z fe me) (length fe) num0 0) in *. clearbody out.
  pose proof (E0_pos z HL) as P0. pose proof H as (H2 & Hz & Hm & Hi & Hp).
  rewrite Forall_forall in Hs.
  assert (HS : mesh_ok (subband kt fe me) z me).
  { unfold mesh_ok, subband. rewrite map_length, seq_length. tauto. }
  assert (HSl : length (subband kt fe me) = length fe) by (unfold subband; rewrite map_length, seq_length; reflexivity).
  assert (HP : forall p, In p out ->
     eigenpair (length fe) (fun i j => RtoC (hamiltonian (subband kt fe me) z me false i j))
       (fst p * RtoC (E0 z) + RtoC (list_min fe))%C (vec (snd p))).
  { intros p Hin. destruct (Hs p Hin) as [_ [Hnz Heq]]. split; [exact Hnz|]. intros i Hlt.
    specialize (Heq i Hlt).
    transitivity (RtoC (E0 z) * csum (length fe) (fun j => RtoC (par_matrix kt z fe me i j) * nth j (snd p) (RtoC 0)) +
       csum (length fe) (fun j => if Nat.eqb j i then RtoC (list_min fe) * nth j (snd p) (RtoC 0) else 0))%C.
    - rewrite <- csum_scal, <- csum_plus. apply csum_ext. intros j Hj.
      rewrite <- par_matrix_scaled by assumption. rewrite (Nat.eqb_sym j i).
      destruct (Nat.eqb i j); apply injective_projections; simpl; ring.
    - rewrite Heq.
      assert (K : csum (length fe) (fun j => if Nat.eqb j i then RtoC (list_min fe) * nth j (snd p) (RtoC 0) else 0)%C =
                  (RtoC (list_min fe) * nth i (snd p) (RtoC 0))%C).
      { clear - Hlt. revert Hlt. generalize (length fe). induction n as [|n IH]; intro Hlt; [lia|].
        simpl. destruct (Nat.eqb_spec n i) as [->|Hne].
        - rewrite csum_zero; [ring|]. intros j Hj. destruct (Nat.eqb_spec j i); [lia|reflexivity].
        - rewrite IH by lia. ring. }
      rewrite K. ring. }
  assert (HR : forall p, In p out -> (fst p * RtoC (E0 z) + RtoC (list_min fe))%C = RtoC (fst (fst p) * E0 z + list_min fe)
     /\ list_min (subband kt fe me) <= fst (fst p) * E0 z + list_min fe).
  { intros p Hin. pose proof (HP p Hin) as He. rewrite <- HSl in He.
    destruct (C56_levels _ _ _ _ _ HS He) as [A B]. simpl in A, B. split.
    - apply injective_projections; simpl; [ring|]. exact A.
    - replace (fst (fst p) * E0 z - snd (fst p) * 0 + list_min fe) with (fst (fst p) * E0 z + list_min fe) in B by ring.
      exact B. }
  destruct (if Rlt_dec quasi 0 then match map fst out with [] => Err ValueError | _ => Ok (cmax (map fst out)) end
            else Ok (RtoC (list_max (par_fe z fe) + quasi * q / E0 z))) as [potmax|] eqn:EP; [|discriminate].
  cbn [bindR] in HE. injection HE as <-. split.
  - rewrite map_length. eapply Nat.le_trans; [apply filter_le|]. rewrite firstn_length. lia.
  - rewrite Forall_forall. intros e He. apply in_map_iff in He. destruct He as (c0 & <- & Hf).
    apply filter_In in Hf. destruct Hf as [Hf Hlt].
    assert (Hin : In c0 (map fst out)).
    { rewrite <- (firstn_skipn num1 (map fst out)). apply in_or_app. left. exact Hf. }
    apply in_map_iff in Hin. destruct Hin as (p & <- & Hin). destruct (HR p Hin) as [R1 R2].
    split; [exists (vec (snd p)); rewrite <- R1; exact (HP p Hin)|]. split; [exact R2|].
    intro Hq. destruct (Rlt_dec quasi 0); [lra|]. injection EP as <-.
    assert (Hlt' : fst (fst p) < list_max (par_fe z fe) + quasi * q / E0 z).
    { unfold cltc in Hlt. cbn [RtoC fst snd] in Hlt. destruct (Rlt_dec (fst (fst p)) _) as [A|A]; [exact A|].
      destruct (Req_EM_T (fst (fst p)) _); [|discriminate]. destruct (Rlt_dec (snd (fst p)) 0) as [B|B]; [|discriminate].
      exfalso. apply (f_equal snd) in R1. simpl in R1. nra. }
    assert (HM : list_max (par_fe z fe) * E0 z <= list_max fe - list_min fe).
    { assert (I : In (list_max (par_fe z fe)) (par_fe z fe)).
      { apply list_max_in. unfold par_fe. destruct fe; [simpl in H2; lia|discriminate]. }
      unfold par_fe in I at 2. apply in_map_iff in I. destruct I as (f & <- & If). pose proof (list_max_ge fe f If).
      unfold Rdiv. rewrite Rmult_assoc, Rinv_l by lra. lra. }
    apply (Rmult_lt_compat_r (E0 z)) in Hlt'; [|exact P0].
    replace ((list_max (par_fe z fe) + quasi * q / E0 z) * E0 z) with (list_max (par_fe z fe) * E0 z + quasi * q) in Hlt'
      by (field; lra). lra.
Qed.

(** C95: a negative [quasiconfined] is meant to keep all levels; the highest is always
    lost. *)
Theorem C95_all_levels_refuted : forall eigs kt z fe me num0 num1 quasi E,
  quasi < 0 -> parabolic eigs kt z fe me num0 num1 quasi = Ok E ->
  (length E < length (eigs (par_matrix kt z fe me) (length fe) num0 0%R))%nat.
Proof.
  intros eigs kt z fe me num0 num1 quasi E Hq HE. unfold parabolic in HE.
  rewrite <- (map_length fst (eigs _ _ _ _)).
  set (out := map fst (eigs (par_matrix kt z fe me) (length fe) num0 0)) in *. clearbody out.
  destruct (Rlt_dec quasi 0); [|lra].
  assert (Hne : out <> []) by (intro K; rewrite K in HE; discriminate).
  assert (EM : match out with [] => Err ValueError | _ => Ok (cmax out) end = Ok (cmax out)) by (destruct out; congruence).
  rewrite EM in HE. cbn [bindR] in HE. injection HE as <-. rewrite map_length. clear EM. rename out into o.
  pose proof (cmax_in o Hne) as Hin. generalize dependent (cmax o). intros mx Hin.
  assert (G : forall n l, (In mx (firstn n l) -> (length (filter (fun e => cltc e mx) (firstn n l)) < length l)%nat) /\
                          (length (filter (fun e => cltc e mx) (firstn n l)) <= length l)%nat).
  { clear. induction n as [|n IH]; intros [|b l]; simpl; try (split; [contradiction|lia]).
    destruct (IH l) as [I1 I2]. split.
    - intros [->|Hin]; [rewrite cltc_irrefl; lia|]. specialize (I1 Hin). destruct (cltc b mx); simpl; lia.
    - destruct (cltc b mx); simpl; lia. }
  destruct (in_dec (fun x y => match Ceq_dec x y with left e => left e | right n => right n end) mx (firstn num1 o)) as [I|I].
  - apply G. exact I.
  - assert (num1 < length o)%nat.
    { destruct (Nat.lt_ge_cases num1 (length o)) as [L|L]; [exact L|]. rewrite firstn_all2 in I by lia. contradiction. }
    eapply Nat.le_lt_trans; [apply filter_le|]. rewrite firstn_length. lia.
Qed.

(** A two-point mesh. *)
Example C95_example :
  let H := par_matrix 1 [0; 1] [0; 0] [1; 1] in
  let eigs : solver := fun _ _ _ _ => [(RtoC (H 0%nat 0%nat + H 0%nat 1%nat), [RtoC 1; RtoC 1])] in
  mesh_ok [0; 0] [0; 1] [1; 1] /\ 0 < list_max [0; 1] /\ eigs_ok eigs H 2 1 0 /\
  exists E, parabolic eigs 1 [0; 1] [0; 0] [1; 1] 1 1 0 = Ok E.
Proof.
  cbv zeta. set (H := par_matrix 1 [0; 1] [0; 0] [1; 1]).
  assert (HM : list_max [0; 1] = 1) by (simpl; unfold Rmax; destruct (Rle_dec 0 1); lra).
  split; [|split; [rewrite HM; lra|split]].
  - repeat split; simpl; try lia.
    + intros [|i] Hi; simpl; [lra|lia].
    + intros v Hv. intuition; subst; lra.
  - assert (A : H 0%nat 0%nat = H 1%nat 1%nat /\ H 0%nat 1%nat = H 1%nat 0%nat).
    { unfold H, par_matrix, dia, par_z, grad, mass_a, mass_b, mass_c, par_m. rewrite !map_length. cbn [length].
      rewrite HM. simpl. split; lra. }
    destruct A as [A B]. clearbody H.
    apply Forall_cons; [|apply Forall_nil]. split; [reflexivity|]. split.
    + exists 0%nat. split; [lia|]. simpl. intro K. apply (f_equal fst) in K. simpl in K. lra.
    + intros [|[|i]] Hi; [| |lia]; simpl; rewrite ?A, ?B; apply injective_projections; simpl; ring.
  - unfold parabolic. destruct (Rlt_dec 0 0); [lra|]. cbn [bindR]. eexists. reflexivity.
Qed.

(** * C91: the coupled hole Hamiltonian *)

Lemma nth_repeat_lt (x : R) n : forall k, (k < n)%nat -> nth k (repeat x n) 0 = x.
Proof. induction n as [|n IH]; intros [|k] Hk; simpl; try lia; auto. apply IH; lia. Qed.

Definition const_on (l : list R) (n : nat) (a : R) : Prop := forall i, (i < n)%nat -> at_ l i = a.
(** The entries for constant coefficients and an arbitrary potential. *)
Definition const_entry (c : coeffs) (a2 b2 cc dd dl : R) (k : nat) (o : Z) : R :=
  if Z.eqb o 0 then (if Nat.even k then 2 * a2 / dl ^ 2 + at_ (cA1 c) (Nat.div2 k) else 2 * b2 / dl ^ 2 + at_ (cB1 c) (Nat.div2 k))
  else if (Z.eqb o 2 || Z.eqb o (-2))%bool then (if Nat.even k then - a2 / dl ^ 2 else - b2 / dl ^ 2)
  else if Z.eqb o 1 then (if Nat.even k then cc else dd / (2 * dl))
  else if Z.eqb o (-1) then (if Nat.even k then dd / (2 * dl) else cc)
  else if Z.eqb o 3 then (if Nat.even k then - dd / (2 * dl) else 0)
  else if Z.eqb o (-3) then (if Nat.even k then 0 else - dd / (2 * dl))
  else 0.

Lemma offset_case o : (o = 0 \/ o = 1 \/ o = 2 \/ o = 3 \/ o = -1 \/ o = -2 \/ o = -3)%Z \/
     ((o =? 0) = false /\ (o =? 1) = false /\ (o =? 2) = false /\ (o =? 3) = false /\ (o =? -1) = false /\ (o =? -2) = false /\ (o =? -3) = false)%Z.
Proof. rewrite !Z.eqb_neq; lia. Qed.

Lemma fill_const c a2 b2 cc dd dl k j :
  let N := length (cA1 c) in
  (2 <= N)%nat -> dl <> 0 ->
  const_on (cA2 c) N a2 -> const_on (cB2 c) N b2 -> const_on (cC c) N cc -> const_on (cD c) N dd ->
  (k < 2 * N)%nat -> (j < 2 * N)%nat ->
  fill_hamiltonian c dl true k j = const_entry c a2 b2 cc dd dl k (Z.of_nat j - Z.of_nat k).
Proof.
  cbv zeta. intros HN Hd HA HB HC HD Hk Hj. unfold fill_hamiltonian.
  destruct (Nat.ltb_spec k (2 * length (cA1 c))); [|lia]. destruct (Nat.ltb_spec j (2 * length (cA1 c))); [|lia].
  cbn [andb]. unfold const_entry, fill_row.
  pose proof (Nat.div2_odd k) as Hdiv. set (i := Nat.div2 k) in *.
  assert (Hodd : Nat.odd k = negb (Nat.even k)) by (symmetry; apply Nat.negb_even). rewrite Hodd in Hdiv. clear Hodd.
  assert (Hi : (i < length (cA1 c))%nat) by (destruct (Nat.even k); simpl in Hdiv; lia).
  clearbody i. set (N := length (cA1 c)) in *. clearbody N.
  remember (Z.of_nat j - Z.of_nat k)%Z as o eqn:Ho.
  unfold const_on in *.
  assert (L1 : (i < N)%nat) by lia. assert (L2 : (0 < N)%nat) by lia. assert (L3 : (1 < N)%nat) by lia.
  assert (L4 : (N - 1 < N)%nat) by lia. assert (L5 : (N - 2 < N)%nat) by lia. assert (L6 : (i - 1 < N)%nat) by lia.
  destruct (Nat.even k); cbn [negb Nat.b2n] in Hdiv;
    (destruct (Nat.eqb_spec i 0) as [F|F]; destruct (Nat.eqb_spec i (N - 1)) as [L|L]; [exfalso; lia| | | ]);
    try (assert (L7 : (i + 1 < N)%nat) by lia; rewrite ?(HA _ L7), ?(HB _ L7), ?(HD _ L7));
    rewrite ?(HA _ L1), ?(HA _ L2), ?(HA _ L3), ?(HA _ L4), ?(HA _ L5), ?(HA _ L6), ?(HB _ L1), ?(HB _ L2), ?(HB _ L3), ?(HB _ L4), ?(HB _ L5), ?(HB _ L6), ?(HC _ L1), ?(HC _ L2), ?(HC _ L3), ?(HC _ L4), ?(HC _ L5), ?(HC _ L6), ?(HD _ L1), ?(HD _ L2), ?(HD _ L3), ?(HD _ L4), ?(HD _ L5), ?(HD _ L6);
    cbn [app fold_right fst snd]; pose proof (offset_case o) as Hcase;
    (destruct Hcase as [[E|[E|[E|[E|[E|[E|E]]]]]]|(E1 & E2 & E3 & E4 & E5 & E6 & E7)];
      [rewrite E in Ho |- *|rewrite E in Ho |- *|rewrite E in Ho |- *|rewrite E in Ho |- *|rewrite E in Ho |- *|rewrite E in Ho |- *|rewrite E in Ho |- *|rewrite ?E1, ?E2, ?E3, ?E4, ?E5, ?E6, ?E7]);
    cbn [Z.eqb Pos.eqb orb]; first [ring | field; exact Hd | exfalso; clear - Ho Hdiv F L Hk Hj; lia].
Qed.

Definition same_mesh (c : coeffs) : Prop := length (cB1 c) = length (cA1 c).

(** C91: for position-independent Luttinger parameters, any potential and any in-plane
    wave vector, both blocks are symmetric. *)
Theorem C91_symmetric_partial : forall c a2 b2 cc dd dl blk,
  let N := length (cA1 c) in
  (2 <= N)%nat -> same_mesh c -> dl <> 0 ->
  const_on (cA2 c) N a2 -> const_on (cB2 c) N b2 -> const_on (cC c) N cc -> const_on (cD c) N dd ->
  forall k j, (k < 2 * N)%nat -> (j < 2 * N)%nat ->
  fill_hamiltonian c dl blk k j = fill_hamiltonian c dl blk j k.
Proof.
  cbv zeta. intros c a2 b2 cc dd dl blk HN Hsm Hd HA HB HC HD k j Hk Hj.
  assert (G : forall c a2 b2, (2 <= length (cA1 c))%nat ->
     const_on (cA2 c) (length (cA1 c)) a2 -> const_on (cB2 c) (length (cA1 c)) b2 ->
     const_on (cC c) (length (cA1 c)) cc -> const_on (cD c) (length (cA1 c)) dd ->
     (k < 2 * length (cA1 c))%nat -> (j < 2 * length (cA1 c))%nat ->
     fill_hamiltonian c dl true k j = fill_hamiltonian c dl true j k).
  { clear - Hd. intros c a2 b2 HN HA HB HC HD Hk Hj.
    rewrite !(fill_const c a2 b2 cc dd dl) by assumption. unfold const_entry.
    assert (Hpar : forall k, (k = 2 * Nat.div2 k + (if Nat.even k then 0 else 1))%nat).
    { intro k0. pose proof (Nat.div2_odd k0) as A. rewrite <- Nat.negb_even in A. destruct (Nat.even k0); simpl in A; lia. }
    pose proof (Hpar k) as Pk. pose proof (Hpar j) as Pj.
    replace (Z.of_nat k - Z.of_nat j)%Z with (- (Z.of_nat j - Z.of_nat k))%Z by lia.
    remember (Z.of_nat j - Z.of_nat k)%Z as o eqn:Ho.
    assert (Hcase : (o = 0 \/ o = 1 \/ o = 2 \/ o = 3 \/ o = -1 \/ o = -2 \/ o = -3)%Z \/
      (((o =? 0) = false /\ (o =? 1) = false /\ (o =? 2) = false /\ (o =? 3) = false /\ (o =? -1) = false /\ (o =? -2) = false /\ (o =? -3) = false) /\
       ((- o =? 0) = false /\ (- o =? 1) = false /\ (- o =? 2) = false /\ (- o =? 3) = false /\ (- o =? -1) = false /\ (- o =? -2) = false /\ (- o =? -3) = false))%Z)
      by (rewrite !Z.eqb_neq; lia).
    destruct Hcase as [[E|[E|[E|[E|[E|[E|E]]]]]]|((E1 & E2 & E3 & E4 & E5 & E6 & E7) & (F1 & F2 & F3 & F4 & F5 & F6 & F7))].
    { assert (j = k) by lia. subst j o. rewrite E. reflexivity. }
    7: { rewrite ?E1, ?E2, ?E3, ?E4, ?E5, ?E6, ?E7, ?F1, ?F2, ?F3, ?F4, ?F5, ?F6, ?F7. reflexivity. }
    all: rewrite E in Ho |- *; cbn [Z.opp Z.eqb Pos.eqb orb];
      destruct (Nat.even k), (Nat.even j); first [reflexivity | exfalso; lia]. }
  destruct blk.
  - apply (G c a2 b2); assumption.
  - unfold fill_hamiltonian at 1 2.
    apply (G (swap_AB c) b2 a2); unfold swap_AB; cbn [cA1 cA2 cB1 cB2 cC cD]; rewrite ?Hsm; assumption.
Qed.

(** C91: where the parameters change, the matrix is not symmetric. *)
Theorem C91_interface_refuted : exists c dl, dl <> 0 /\
  (forall l, In l [cA1 c; cA2 c; cB1 c; cB2 c; cC c; cD c] -> length l = 4%nat) /\
  (forall v, In v (cA2 c) \/ In v (cB2 c) -> 0 < v) /\
  fill_hamiltonian c dl true 2 4 <> fill_hamiltonian c dl true 4 2.
Proof.
  exists {| cA1 := [0; 0; 0; 0]; cA2 := [1; 1; 2; 2]; cB1 := [0; 0; 0; 0]; cB2 := [1; 1; 2; 2];
            cC := [0; 0; 0; 0]; cD := [0; 0; 0; 0] |}, 1.
  split; [lra|]. split; [intros l Hl; simpl in Hl; intuition; subst; reflexivity|].
  split; [intros v Hv; simpl in Hv; intuition; subst; lra|].
  unfold fill_hamiltonian, fill_row; simpl. lra.
Qed.

(** C91: at zero in-plane wave vector the heavy and light holes do not mix, and for
    position-independent parameters each is the one-band problem with the growth-direction
    mass of the 4-band model, m0/(g1 - 2 g2) and m0/(g1 + 2 g2). *)
Theorem C91_zone_centre_partial : forall z fhh flh g1 g2 g3 G1 G2 h blk,
  let N := length z in
  let off := Rmin (list_min fhh) (list_min flh) in
  let dl := (at_ z 1 - at_ z 0) / list_max z in
  let H := fill_hamiltonian (hole_coeffs 0 z fhh flh g1 g2 g3) dl blk in
  let mhh := repeat (electron_mass / (G1 - 2 * G2)) N in
  let mlh := repeat (electron_mass / (G1 + 2 * G2)) N in
  let band := fun f => map (fun i => off - at_ f i) (seq 0 N) in
  (2 <= N)%nat -> 0 < list_max z -> uniform z h -> 0 < h ->
  const_on g1 N G1 -> const_on g2 N G2 -> 0 < G1 - 2 * G2 -> 0 < G1 + 2 * G2 ->
  forall i j, (i < N)%nat -> (j < N)%nat ->
  H (2 * i)%nat (2 * j + 1)%nat = 0 /\ H (2 * i + 1)%nat (2 * j)%nat = 0 /\
  E0 z * H (2 * i)%nat (2 * j)%nat =
    hamiltonian (band (if blk : bool then fhh else flh)) z (if blk then mhh else mlh) false i j /\
  E0 z * H (2 * i + 1)%nat (2 * j + 1)%nat =
    hamiltonian (band (if blk then flh else fhh)) z (if blk then mlh else mhh) false i j.
Proof.
  cbv zeta. intros z fhh flh g1 g2 g3 G1 G2 h blk HN HL Hu Hh HG1 HG2 Hg1 Hg2 i j Hi Hj.
  set (N := length z) in *. set (off := Rmin (list_min fhh) (list_min flh)).
  set (c := hole_coeffs 0 z fhh flh g1 g2 g3).
  set (dl := (at_ z 1 - at_ z 0) / list_max z).
  assert (Hz1 : at_ z 1 - at_ z 0 = h) by (apply Hu; unfold N in HN; lia).
  assert (Hdl : dl = h / list_max z) by (unfold dl; rewrite Hz1; reflexivity).
  assert (Hd0 : dl <> 0).
  { rewrite Hdl. apply Rgt_not_eq, Rdiv_lt_0_compat; assumption. }
  assert (LA : length (cA1 c) = N) by (unfold c, hole_coeffs; cbn [cA1]; rewrite map_length, seq_length; reflexivity).
  assert (LB : length (cB1 c) = N) by (unfold c, hole_coeffs; cbn [cB1]; rewrite map_length, seq_length; reflexivity).
  assert (HA1 : forall k, (k < N)%nat -> at_ (cA1 c) k = (off - at_ fhh k) / E0 z).
  { intros k Hk. unfold c, hole_coeffs; cbn [cA1]. rewrite at_map_seq by exact Hk. fold off. unfold Rdiv. ring. }
  assert (HB1 : forall k, (k < N)%nat -> at_ (cB1 c) k = (off - at_ flh k) / E0 z).
  { intros k Hk. unfold c, hole_coeffs; cbn [cB1]. rewrite at_map_seq by exact Hk. fold off. unfold Rdiv. ring. }
  assert (HA2 : const_on (cA2 c) N (/ 2 * (G1 - 2 * G2))).
  { intros k Hk. unfold c, hole_coeffs; cbn [cA2]. rewrite at_map_seq by exact Hk. rewrite HG1, HG2 by exact Hk. reflexivity. }
  assert (HB2 : const_on (cB2 c) N (/ 2 * (G1 + 2 * G2))).
  { intros k Hk. unfold c, hole_coeffs; cbn [cB2]. rewrite at_map_seq by exact Hk. rewrite HG1, HG2 by exact Hk. reflexivity. }
  assert (HC : const_on (cC c) N 0).
  { intros k Hk. unfold c, hole_coeffs; cbn [cC]. rewrite at_map_seq by exact Hk. ring. }
  assert (HD : const_on (cD c) N 0).
  { intros k Hk. unfold c, hole_coeffs; cbn [cD]. rewrite at_map_seq by exact Hk. ring. }
  clearbody c.
  (* one block *)
  assert (G : forall c fa fb Ga Gb, length (cA1 c) = N ->
    0 < Ga -> 0 < Gb ->
    (forall k, (k < N)%nat -> at_ (cA1 c) k = (off - at_ fa k) / E0 z) ->
    (forall k, (k < N)%nat -> at_ (cB1 c) k = (off - at_ fb k) / E0 z) ->
    const_on (cA2 c) N (/ 2 * Ga) -> const_on (cB2 c) N (/ 2 * Gb) -> const_on (cC c) N 0 -> const_on (cD c) N 0 ->
    let H := fill_hamiltonian c dl true in
    H (2 * i)%nat (2 * j + 1)%nat = 0 /\ H (2 * i + 1)%nat (2 * j)%nat = 0 /\
    E0 z * H (2 * i)%nat (2 * j)%nat =
      hamiltonian (map (fun i => off - at_ fa i) (seq 0 N)) z (repeat (electron_mass / Ga) N) false i j /\
    E0 z * H (2 * i + 1)%nat (2 * j + 1)%nat =
      hamiltonian (map (fun i => off - at_ fb i) (seq 0 N)) z (repeat (electron_mass / Gb) N) false i j).
  { clear c LA LB HA1 HB1 HA2 HB2 HC HD. intros c fa fb Ga Gb LA PA PB HA1 HB1 HA2 HB2 HC HD. cbv zeta.
    assert (HE : forall k l, (k < 2 * N)%nat -> (l < 2 * N)%nat ->
      fill_hamiltonian c dl true k l = const_entry c (/ 2 * Ga) (/ 2 * Gb) 0 0 dl k (Z.of_nat l - Z.of_nat k)).
    { intros k l Hk Hl. apply fill_const; rewrite ?LA; assumption. }
    pose proof hbar_pos as Ph. pose proof electron_mass_pos as Pm. pose proof (E0_pos z HL) as PE.
    assert (HT : forall f Gx, 0 < Gx -> hamiltonian (map (fun i => off - at_ f i) (seq 0 N)) z (repeat (electron_mass / Gx) N) false i j =
      hbar ^ 2 / (2 * h ^ 2) * Gx / electron_mass * ((if Nat.eqb i (S j) then -1 else 0) + (if Nat.eqb i j then 2 else 0) + (if Nat.eqb j (S i) then -1 else 0))
      + (if Nat.eqb i j then off - at_ f j else 0)).
    { intros f Gx PG.
      rewrite ham_tri by (rewrite ?map_length, ?seq_length, ?repeat_length; auto).
      assert (Hm : forall k, (k < N)%nat -> at_ (repeat (electron_mass / Gx) N) k = electron_mass / Gx).
      { intros k Hk. apply nth_repeat_lt. exact Hk. }
      assert (Hk : kin z j = hbar ^ 2 / (4 * h ^ 2)).
      { unfold kin. rewrite (uniform_grad z h) by (auto; fold N; lia). reflexivity. }
      unfold tri. rewrite at_map_seq by exact Hj. rewrite Hk.
      destruct (Nat.eqb_spec i (S j)); destruct (Nat.eqb_spec i j); destruct (Nat.eqb_spec j (S i)); try lia.
      - unfold wgt. rewrite !Hm by lia. field. repeat split; lra.
      - unfold wsum, wgt. rewrite repeat_length.
        destruct (Nat.eqb_spec j 0); destruct (Nat.eqb_spec (S j) N); rewrite !Hm by lia; field; repeat split; lra.
      - unfold wgt. rewrite !Hm by lia. field. repeat split; lra.
      - ring. }
    rewrite !HT by assumption. rewrite !HE by lia. unfold const_entry.
    replace (Nat.even (2 * i)) with true by (symmetry; rewrite Nat.even_mul; reflexivity).
    replace (Nat.even (2 * i + 1)) with false by (symmetry; rewrite Nat.even_add, Nat.even_mul; reflexivity).
    assert (D0 : Nat.div2 (2 * i) = i) by (apply Nat.div2_double).
    assert (D1 : Nat.div2 (2 * i + 1) = i) by (rewrite Nat.add_1_r; apply Nat.div2_succ_double).
    rewrite D0, D1, HA1, HB1 by exact Hi.
    assert (EE : E0 z = hbar ^ 2 / (electron_mass * list_max z ^ 2)) by reflexivity.
    assert (KK : forall x, E0 z * (x / E0 z) = x) by (intro; field; lra).
    assert (K1 : forall Gx, E0 z * (2 * (/ 2 * Gx) / dl ^ 2) = hbar ^ 2 / (2 * h ^ 2) * Gx / electron_mass * 2).
    { intro Gx. rewrite EE, Hdl. field. repeat split; lra. }
    assert (K2 : forall Gx, E0 z * (- (/ 2 * Gx) / dl ^ 2) = hbar ^ 2 / (2 * h ^ 2) * Gx / electron_mass * -1).
    { intro Gx. rewrite EE, Hdl. field. repeat split; lra. }
    repeat split.
    - repeat match goal with |- context [Z.eqb ?a ?b] => destruct (Z.eqb_spec a b); try lia end; cbn [orb]; try (field; exact Hd0); ring.
    - repeat match goal with |- context [Z.eqb ?a ?b] => destruct (Z.eqb_spec a b); try lia end; cbn [orb]; try (field; exact Hd0); ring.
    - destruct (Nat.eqb_spec i j) as [E|E].
      + subst j. destruct (Z.eqb_spec (Z.of_nat (2 * i) - Z.of_nat (2 * i)) 0); [|lia].
        destruct (Nat.eqb_spec i (S i)); [lia|]. rewrite Rmult_plus_distr_l, K1, KK. ring.
      + repeat match goal with |- context [Z.eqb ?a ?b] => destruct (Z.eqb_spec a b); try lia end;
        destruct (Nat.eqb_spec i (S j)); destruct (Nat.eqb_spec j (S i)); try lia; cbn [orb]; rewrite ?K2; ring.
    - destruct (Nat.eqb_spec i j) as [E|E].
      + subst j. destruct (Z.eqb_spec (Z.of_nat (2 * i + 1) - Z.of_nat (2 * i + 1)) 0); [|lia].
        destruct (Nat.eqb_spec i (S i)); [lia|]. rewrite Rmult_plus_distr_l, K1, KK. ring.
      + repeat match goal with |- context [Z.eqb ?a ?b] => destruct (Z.eqb_spec a b); try lia end;
        destruct (Nat.eqb_spec i (S j)); destruct (Nat.eqb_spec j (S i)); try lia; cbn [orb]; rewrite ?K2; ring. }
  destruct blk.
  - exact (G c fhh flh _ _ LA Hg1 Hg2 HA1 HB1 HA2 HB2 HC HD).
  - unfold fill_hamiltonian at 1 2 3 4.
    exact (G (swap_AB c) flh fhh _ _ LB Hg2 Hg1 HB1 HA1 HB2 HA2 HC HD).
Qed.

Example C91_example :
  let z := [0; 1; 2] in let g := [7; 7; 7] in let g' := [2; 2; 2] in
  (2 <= length z)%nat /\ 0 < list_max z /\ uniform z 1 /\ const_on g 3 7 /\ const_on g' 3 2 /\ 0 < 7 - 2 * 2.
Proof.
  cbv zeta. repeat split; try lra; simpl; try lia.
  - unfold Rmax. repeat match goal with |- context [Rle_dec ?a ?b] => destruct (Rle_dec a b) end; lra.
  - intros [|[|i]] Hi; simpl in *; try lra; lia.
  - intros [|[|[|i]]] Hi; simpl; try lra; lia.
  - intros [|[|[|i]]] Hi; simpl; try lra; lia.
Qed.

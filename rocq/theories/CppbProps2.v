(** Properties of oscillators and their sum, C185 (the model is CppbModel.v). *)
From Coq Require Import Reals Lra Lia Ascii String List Bool Arith.
From Coquelicot Require Import Complex.
From Verif Require Import Common PhysConst AdachiModel AdachiProps EllProps CppbModel CppbProps.
From Verif Require SchrodModel SchrodProps.
From Coq Require Import List.
Import ListNotations.
Open Scope R_scope.
Open Scope list_scope.

(** * Broadening *)
(** The broadening lies between zero and its parameter, which it attains at the critical point. *)
Theorem C185_broad (gamma alpha e0 E : R) : 0 < gamma -> 0 <= alpha ->
  0 < broad gamma alpha e0 E <= gamma /\ broad gamma alpha e0 e0 = gamma
  /\ (alpha = 0 -> broad gamma alpha e0 E = gamma)
  /\ (forall E2, Rabs (E - e0) <= Rabs (E2 - e0) -> broad gamma alpha e0 E2 <= broad gamma alpha e0 E).
Proof.
  intros Hg Ha. unfold broad.
  assert (P : forall x, 0 <= alpha * (x / gamma) ^ 2) by (intro; apply Rmult_le_pos; [lra|apply pow2_ge_0]).
  assert (L : forall x y, x <= y -> exp x <= exp y) by (intros x y [H|H]; [left; apply exp_increasing, H|right; rewrite H; reflexivity]).
  split; [split|split; [|split]].
  - apply Rmult_lt_0_compat; [lra|apply exp_pos].
  - rewrite <- (Rmult_1_r gamma) at 3. apply Rmult_le_compat_l; [lra|]. rewrite <- exp_0. apply L.
    specialize (P (E - e0)). lra.
  - replace (-1 * alpha * ((e0 - e0) / gamma) ^ 2) with 0 by (field; lra). rewrite exp_0. lra.
  - intros ->. replace (-1 * 0 * ((E - e0) / gamma) ^ 2) with 0 by ring. rewrite exp_0. lra.
  - intros E2 H. apply Rmult_le_compat_l; [lra|]. apply L.
    assert (Q : ((E - e0) / gamma) ^ 2 <= ((E2 - e0) / gamma) ^ 2).
    { unfold Rdiv. rewrite !Rpow_mult_distr. apply Rmult_le_compat_r; [apply pow2_ge_0|].
      rewrite <- (pow2_abs (E - e0)), <- (pow2_abs (E2 - e0)). apply pow_incr. split; [apply Rabs_pos|exact H]. }
    apply Rmult_le_compat_l with (r := alpha) in Q; [|lra]. lra.
Qed.
Example C185_broad_ex : broad (1/10) 0 2 3 = 1/10.
Proof. unfold broad. replace (-1 * 0 * ((3 - 2) / (1 / 10)) ^ 2) with 0 by ring. rewrite exp_0. lra. Qed.

(** * Closed forms *)
Lemma get_num d k x : num d k = Ok x -> dget k d = Some (VNum x).
Proof. unfold num. destruct (dget k d) as [[y|s]|]; intro H; try discriminate H. injection H as ->. reflexivity. Qed.
Lemma num_get d k x : dget k d = Some (VNum x) -> num d k = Ok x.
Proof. unfold num. intros ->. reflexivity. Qed.
Definition has (d : dict) (k : string) (x : R) : Prop := dget k d = Some (VNum x).
Ltac use_nums := repeat match goal with H : has ?d ?k ?x |- _ => apply num_get in H; rewrite H; clear H; cbn [bindR] end.
(** A real number over a complex one *)
Lemma over a x y : x * x + y * y <> 0 -> (RtoC a / (x, y))%C = (a * x / (x * x + y * y), - (a * y) / (x * x + y * y)).
Proof. intro H. unfold Cdiv, Cinv, Cmult, RtoC. cbn [fst snd]. apply injective_projections; cbn [fst snd]; field; intro E; apply H; lra. Qed.

Open Scope string_scope.
(** A Lorentz oscillator, with the broadening [g] at the energy *)
Theorem C185_lorentz (d : dict) (gamma alpha e0 amp E g : R) :
  has d "Gamma" gamma -> has d "Alpha" alpha -> has d "E0" e0 -> has d "Amp" amp ->
  g = broad gamma alpha e0 E -> 0 < gamma -> 0 < E -> 0 < e0 -> 0 <= amp ->
  let den := (e0 ^ 2 - E ^ 2) ^ 2 + (g * E) ^ 2 in
  osc_lorentz d E = Ok (amp * e0 * (e0 ^ 2 - E ^ 2) / den, amp * e0 * (g * E) / den) /\ 0 < den.
Proof.
  intros H1 H2 H3 H4 Hg Hp HE H0 Ha den.
  assert (G : 0 < g) by (rewrite Hg; unfold broad; apply Rmult_lt_0_compat; [exact Hp|apply exp_pos]).
  assert (GE : 0 < g * E) by (apply Rmult_lt_0_compat; assumption).
  assert (D : 0 < den) by (unfold den; assert (0 < (g * E) ^ 2) by (apply pow_lt; exact GE); assert (Q := pow2_ge_0 (e0 ^ 2 - E ^ 2)); lra).
  split; [|exact D]. unfold osc_lorentz. use_nums. rewrite <- Hg. unfold lorentz_val.
  assert (N : (e0 ^ 2 - E ^ 2) * (e0 ^ 2 - E ^ 2) + - (g * E) * - (g * E) = den) by (unfold den; ring).
  rewrite over by (rewrite N; lra). rewrite N. unfold absorptive. cbn [Re Im fst snd].
  f_equal. apply injective_projections; cbn [fst snd]; [reflexivity|].
  replace (- (amp * e0 * - (g * E)) / den) with (amp * e0 * (g * E) / den) by (field; lra).
  apply Rabs_pos_eq. apply Rmult_le_pos; [|left; apply Rinv_0_lt_compat, D].
  apply Rmult_le_pos; [apply Rmult_le_pos; lra|lra].
Qed.
Example C185_lorentz_ex :
  let d := [("Gamma", VNum 1); ("Alpha", VNum 0); ("E0", VNum 2); ("Amp", VNum 3)] in
  osc_lorentz d 2 = Ok (0, 3).
Proof.
  intro d. destruct (C185_lorentz d 1 0 2 3 2 1) as [E _]; try reflexivity; try lra.
  - unfold broad. replace (-1 * 0 * ((2 - 2) / 1) ^ 2) with 0 by ring. rewrite exp_0. lra.
  - rewrite E. f_equal. apply injective_projections; cbn [fst snd]; field.
Qed.
(** The damped harmonic oscillator of the critical point E2 *)
Theorem C185_e2 (d : dict) (gamma alpha e2 a E g : R) :
  has d "Gamma_E2" gamma -> has d "Alpha_E2" alpha -> has d "E2" e2 -> has d "C" a ->
  g = broad gamma alpha e2 E -> 0 < gamma -> 0 < E -> 0 < e2 -> 0 <= a ->
  let x := E / e2 in let den := (1 - x ^ 2) ^ 2 + (x * g) ^ 2 in
  osc_e2 d E = Ok (a * (1 - x ^ 2) / den, a * (x * g) / den) /\ 0 < den.
Proof.
  intros H1 H2 H3 H4 Hg Hp HE H0 Ha x den.
  assert (G : 0 < g) by (rewrite Hg; unfold broad; apply Rmult_lt_0_compat; [exact Hp|apply exp_pos]).
  assert (X : 0 < x) by (apply Rdiv_lt_0_compat; assumption).
  assert (GE : 0 < x * g) by (apply Rmult_lt_0_compat; assumption).
  assert (D : 0 < den) by (unfold den; assert (0 < (x * g) ^ 2) by (apply pow_lt; exact GE); assert (Q := pow2_ge_0 (1 - x ^ 2)); lra).
  split; [|exact D]. unfold osc_e2. use_nums. rewrite <- Hg. unfold e2_val. fold x.
  assert (N : (1 - x ^ 2) * (1 - x ^ 2) + - (x * g) * - (x * g) = den) by (unfold den; ring).
  rewrite over by (rewrite N; lra). rewrite N. unfold absorptive. cbn [Re Im fst snd].
  f_equal. apply injective_projections; cbn [fst snd]; [reflexivity|].
  replace (- (a * - (x * g)) / den) with (a * (x * g) / den) by (field; lra).
  apply Rabs_pos_eq. apply Rmult_le_pos; [|left; apply Rinv_0_lt_compat, D].
  apply Rmult_le_pos; lra.
Qed.
(** Sums of excitons *)
Definition rsum (l : list R) : R := fold_right Rplus 0 l.
Lemma csum_parts l : csum l = (rsum (map fst l), rsum (map snd l)).
Proof. induction l as [|[x y] l IH]; [reflexivity|]. cbn [csum fold_right map rsum fst snd] in *. fold (csum l). rewrite IH. reflexivity. Qed.
Lemma rsum_nonneg l : (forall x, In x l -> 0 <= x) -> 0 <= rsum l.
Proof. induction l as [|x l IH]; intro H; cbn [rsum fold_right]; [lra|]. assert (0 <= x) by (apply H; left; reflexivity). assert (0 <= rsum l) by (apply IH; intros; apply H; right; assumption). unfold rsum in *. lra. Qed.
Lemma int_of_INR n : int_of (INR n + 1) = S n.
Proof.
  unfold int_of. replace (up (INR n + 1)) with (Z.of_nat n + 2)%Z; [replace (Z.of_nat n + 2 - 1)%Z with (Z.of_nat (S n)) by lia; apply Nat2Z.id|].
  apply tech_up; rewrite plus_IZR, <- INR_IZR_INZ; lra.
Qed.
(** Excitons: [n] of them, the j-th of strength a/j^3 at the energy e0 - g3/j^2 *)
Theorem C185_exciton (d : dict) (gamma alpha e0 a g3 E g : R) (n : nat) :
  has d "Gamma_Ex0" gamma -> has d "Alpha_Ex0" alpha -> has d "E0" e0 -> has d "n" (INR n) ->
  has d "A_Ex" a -> has d "G_3D" g3 -> g = broad gamma alpha e0 E -> 0 < gamma -> 0 <= a ->
  let gap j := e0 - g3 / INR j ^ 2 - E in
  osc_exciton d E = Ok (rsum (map (fun j => a / INR j ^ 3 * gap j / (gap j ^ 2 + g ^ 2)) (seq 1 n)),
                        rsum (map (fun j => a / INR j ^ 3 * g / (gap j ^ 2 + g ^ 2)) (seq 1 n))).
Proof.
  intros H1 H2 H3 H4 H5 H6 Hg Hp Ha gap.
  assert (G : 0 < g) by (rewrite Hg; unfold broad; apply Rmult_lt_0_compat; [exact Hp|apply exp_pos]).
  assert (D : forall j, 0 < gap j ^ 2 + g ^ 2) by (intro j; assert (0 < g ^ 2) by (apply pow_lt; exact G); assert (Q := pow2_ge_0 (gap j)); lra).
  unfold osc_exciton. use_nums. rewrite <- Hg, int_of_INR. cbn [Nat.sub]. rewrite Nat.sub_0_r, csum_parts, !map_map.
  assert (T : forall j, exciton_term a g3 e0 g E j = (a / INR j ^ 3 * gap j / (gap j ^ 2 + g ^ 2), a / INR j ^ 3 * g / (gap j ^ 2 + g ^ 2))).
  { intro j. unfold exciton_term. fold (gap j). change (RtoC (a / INR j ^ 3) * / (gap j, (- g)%R))%C with (RtoC (a / INR j ^ 3) / (gap j, (- g)%R))%C.
    assert (N : gap j * gap j + - g * - g = gap j ^ 2 + g ^ 2) by ring. specialize (D j).
    rewrite over by (rewrite N; lra). rewrite N. set (s := a / INR j ^ 3). apply injective_projections; cbn [fst snd]; [reflexivity|]. field. lra. }
  unfold absorptive. cbn [Re Im fst snd]. f_equal. f_equal.
  - f_equal. apply map_ext. intro j. rewrite T. reflexivity.
  - rewrite Rabs_pos_eq.
    + f_equal. apply map_ext. intro j. rewrite T. reflexivity.
    + apply rsum_nonneg. intros x Hx. apply in_map_iff in Hx. destruct Hx as [j [<- Hj]]. apply in_seq in Hj.
      rewrite T. cbn [snd]. specialize (D j). assert (J : 0 < INR j) by (apply lt_0_INR; lia).
      apply Rmult_le_pos; [|left; apply Rinv_0_lt_compat, D]. apply Rmult_le_pos; [|lra].
      apply Rmult_le_pos; [exact Ha|]. left. apply Rinv_0_lt_compat, pow_lt, J.
Qed.
Example C185_exciton_ex :
  let d := [("Gamma_Ex0", VNum 1); ("Alpha_Ex0", VNum 0); ("E0", VNum 2); ("n", VNum (INR 1)); ("A_Ex", VNum 1); ("G_3D", VNum 1)] in
  osc_exciton d 2 = Ok (- / 2, / 2).
Proof.
  intro d. rewrite (C185_exciton d 1 0 2 1 1 2 1 1); try reflexivity; try lra.
  - f_equal. cbn [seq map rsum fold_right INR]. apply injective_projections; cbn [fst snd]; field.
  - unfold broad. replace (-1 * 0 * ((2 - 2) / 1) ^ 2) with 0 by ring. rewrite exp_0. lra.
Qed.
(** The critical points E0 and E0 + D0: with the principal square roots of 1 + x and 1 - x *)
Theorem C185_e0 (d : dict) (gamma alpha e0 e0d a E g : R) (z : C) :
  has d "Gamma_E0" gamma -> has d "Alpha_E0" alpha -> has d "E0" e0 -> has d "E0_d0" e0d -> has d "A" a ->
  g = broad gamma alpha e0 E -> osc_e0 d E = Ok z ->
  exists w r1 r2 r3 r4 : C,
    Re z = Re w /\ Im z = Rabs (Im w)
    /\ (r1 * r1 = 1 + (E, g) / RtoC e0)%C /\ (r2 * r2 = 1 - (E, g) / RtoC e0)%C
    /\ (r3 * r3 = 1 + (E, g) / RtoC e0d)%C /\ (r4 * r4 = 1 - (E, g) / RtoC e0d)%C
    /\ 0 <= Re r1 /\ 0 <= Re r2 /\ 0 <= Re r3 /\ 0 <= Re r4
    /\ (w = RtoC (a / (e0 * sqrt e0)) *
            (/ (((E, g) / RtoC e0) * ((E, g) / RtoC e0)) * (2 - r1 - r2)
             + RtoC (1 / 2 * (e0 / e0d * sqrt (e0 / e0d))) * (/ (((E, g) / RtoC e0d) * ((E, g) / RtoC e0d)) * (2 - r3 - r4))))%C.
Proof.
  intros H1 H2 H3 H4 H5 Hg H. revert H. unfold osc_e0. use_nums. rewrite <- Hg. intro H. apply (f_equal (fun r => match r with Ok v => v | Err _ => z end)) in H. subst z.
  exists (e0_val e0 e0d a g E), (SchrodModel.np_csqrt (1 + (E, g) / RtoC e0)%C), (SchrodModel.np_csqrt (1 - (E, g) / RtoC e0)%C),
    (SchrodModel.np_csqrt (1 + (E, g) / RtoC e0d)%C), (SchrodModel.np_csqrt (1 - (E, g) / RtoC e0d)%C).
  split; [reflexivity|]. split; [reflexivity|].
  repeat (split; [apply SchrodProps.np_csqrt_sq|]).
  repeat (split; [unfold SchrodModel.np_csqrt; cbn [Re fst]; apply sqrt_pos|]). reflexivity.
Qed.
(** The critical points E1 and E1 + D1: with the principal logarithms of 1 - x^2 *)
Theorem C185_e1 (d : dict) (gamma alpha e1 e1d b1 b1s E g : R) (z : C) :
  has d "Gamma_E1" gamma -> has d "Alpha_E1" alpha -> has d "E1" e1 -> has d "E1_d1" e1d -> has d "B1" b1 -> has d "B1s" b1s ->
  g = broad gamma alpha e1 E -> 0 < gamma -> 0 < E -> 0 < e1 -> 0 < e1d -> osc_e1 d E = Ok z ->
  exists w l1 l2 : C,
    Re z = Re w /\ Im z = Rabs (Im w)
    /\ (let x := (E, g) / RtoC e1 in let y := (E, g) / RtoC e1d in
        expc l1 = 1 - x * x /\ expc l2 = 1 - y * y /\ w = - (RtoC b1 / (x * x) * l1) - RtoC b1s / (y * y) * l2)%C
    /\ - PI < Im l1 <= PI /\ - PI < Im l2 <= PI.
Proof.
  intros H1 H2 H3 H4 H5 H6 Hg Hp HE P1 P2 H. revert H. unfold osc_e1. use_nums. rewrite <- Hg. intro H.
  apply (f_equal (fun r => match r with Ok v => v | Err _ => z end)) in H. subst z.
  assert (G : 0 < g) by (rewrite Hg; unfold broad; apply Rmult_lt_0_compat; [exact Hp|apply exp_pos]).
  assert (NZ : forall e, 0 < e -> (1 - (E, g) / RtoC e * ((E, g) / RtoC e))%C <> RtoC 0).
  { intros e He Hz. apply (f_equal snd) in Hz. unfold Cdiv, Cinv, Cmult, Cminus, Cplus, Copp, RtoC in Hz. cbn [fst snd] in Hz.
    assert (F : E / e * (g / e) * 2 = 0) by (etransitivity; [|apply Ropp_eq_0_compat, Hz]; field; lra).
    assert (0 < E / e * (g / e)) by (apply Rmult_lt_0_compat; apply Rdiv_lt_0_compat; assumption). lra. }
  exists (e1_term b1 e1 g E + e1_term b1s e1d g E)%C, (clog (1 - (E, g) / RtoC e1 * ((E, g) / RtoC e1))%C), (clog (1 - (E, g) / RtoC e1d * ((E, g) / RtoC e1d))%C).
  split; [reflexivity|]. split; [reflexivity|]. split.
  - cbv zeta. split; [apply expc_clog, NZ, P1|]. split; [apply expc_clog, NZ, P2|].
    unfold e1_term, damped. cbv zeta.
    set (l1 := clog _). set (l2 := clog _). clearbody l1 l2.
    generalize ((E, g) / RtoC e1)%C as x, ((E, g) / RtoC e1d)%C as y. intros x y. unfold Cdiv.
    generalize (/ (x * x))%C as u1, (/ (y * y))%C as u2. intros u1 u2.
    replace (RtoC (-1 * b1)) with (- RtoC b1)%C by (rewrite <- RtoC_opp; f_equal; ring).
    replace (RtoC (-1 * b1s)) with (- RtoC b1s)%C by (rewrite <- RtoC_opp; f_equal; ring).
    destruct u1, u2, l1, l2. unfold Cminus, Copp, Cmult, Cplus, RtoC. cbn [fst snd]. apply injective_projections; cbn [fst snd]; ring.
  - split; apply angle_range.
Qed.
(** Indirect transitions: with principal logarithms *)
Theorem C185_eid (d : dict) (gamma alpha eg ec dd E g : R) (z : C) :
  has d "Gamma_Eg_ID" gamma -> has d "Alpha_Eg_ID" alpha -> has d "Eg_ID" eg -> has d "Ec" ec -> has d "D" dd ->
  g = broad gamma alpha eg E -> 0 < gamma -> osc_eid d E = Ok z ->
  exists w l1 l2 : C,
    Re z = Re w /\ Im z = Rabs (Im w)
    /\ (let s := (E, g) in
        expc l1 = (s + RtoC ec) / (s + RtoC eg) /\ expc l2 = (s - RtoC ec) / (s - RtoC eg)
        /\ w * (s * s) = RtoC (2 * dd / PI) *
             (- RtoC (eg * eg * ln (ec / eg)) + RtoC (1 / 2) * ((s + RtoC eg) * (s + RtoC eg)) * l1
              + RtoC (1 / 2) * ((s - RtoC eg) * (s - RtoC eg)) * l2))%C
    /\ - PI < Im l1 <= PI /\ - PI < Im l2 <= PI.
Proof.
  intros H1 H2 H3 H4 H5 Hg Hp H. revert H. unfold osc_eid. use_nums. rewrite <- Hg. intro H.
  apply (f_equal (fun r => match r with Ok v => v | Err _ => z end)) in H. subst z.
  assert (G : 0 < g) by (rewrite Hg; unfold broad; apply Rmult_lt_0_compat; [exact Hp|apply exp_pos]).
  assert (NS : forall x : R, (E, g) <> RtoC x :> C) by (intros x Hx; apply (f_equal snd) in Hx; cbn in Hx; lra).
  assert (NA : forall x : R, ((E, g) + RtoC x)%C <> RtoC 0) by (intros x Hx; apply (f_equal snd) in Hx; cbn in Hx; lra).
  assert (NB : forall x : R, ((E, g) - RtoC x)%C <> RtoC 0) by (intros x Hx; apply (f_equal snd) in Hx; cbn in Hx; lra).
  assert (ND : forall a b : C, a <> RtoC 0 -> b <> RtoC 0 -> (a / b)%C <> RtoC 0).
  { intros a b Ha Hb. apply Cmult_neq_0; [exact Ha|]. intro Hx.
    apply (fun F : RtoC 1 = RtoC 0 => R1_neq_R0 (f_equal fst F)). rewrite <- (Cinv_r b Hb), Hx. apply Cmult_0_r. }
  exists (eid_val eg ec dd g E), (clog (((E, g) + RtoC ec) / ((E, g) + RtoC eg))%C), (clog (((E, g) - RtoC ec) / ((E, g) - RtoC eg))%C).
  split; [reflexivity|]. split; [reflexivity|]. split; [|split; apply angle_range].
  cbv zeta. split; [apply expc_clog, ND; apply NA|]. split; [apply expc_clog, ND; apply NB|].
  unfold eid_val, damped. cbv zeta. set (l1 := clog _). set (l2 := clog _). clearbody l1 l2.
  rewrite (RtoC_mult (eg * eg) (ln (ec / eg))). generalize (RtoC (2 * dd / PI)) (RtoC (ln (ec / eg))) (RtoC (1 / 2)) (RtoC (eg * eg)) (RtoC eg).
  assert (N0 := NS 0). revert N0. generalize ((E, g) : C). intros s N0 a b hf eg2 e. field. exact N0.
Qed.
Close Scope string_scope.

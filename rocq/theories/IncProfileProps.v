(** C150: the absorption profile of partly incoherent stacks. *)
From Coq Require Import Reals String List Arith Bool Lra Lia Psatz.
From Coquelicot Require Import Coquelicot.
From Verif Require Import Common InterpModel NpModel BeerLambertModel TmmLayersModel TmmLayersProps TmmModel TmmProps Spectral2Props IncModel IncProps
  StackModel RatModel RatProps RatProps2 IncProfileModel.
From Coq Require Import List.
Import ListNotations.
Open Scope R_scope.
Open Scope list_scope.

(** * One coherent layer seen from one side *)
Section Density.
Context (pol : string) (lam beta : R) (Hpol : valid_pol pol) (Hlam : 0 < lam) (Hbeta : 0 <= beta).
Definition amps (n0 : C) (l : list (C * R)) (nf : C) : list (C * C) :=
  amplitudes (lms pol lam beta l nf) (1 / m00 (mt pol lam beta n0 l nf))%C.
Lemma passive_density n0 l nf i n d : passive beta n0 -> Forall (medium_ok pol lam beta) l -> passive beta nf ->
  nth_error l i = Some (n, d) -> Im (kz_of lam n (cos_in beta n) * d)%C <= 100 ->
  let O := out pol lam beta n0 (cos_in beta n0) l nf in
  let vw := nth i (amps n0 l nf) (RtoC 0, RtoC 0) in
  exists A f, absorp_in_each_layer O = Ok A /\ length A = (length l + 2)%nat /\ 0 <= nth (S i) A 0 /\
    (forall z, absor pol n (cos_in beta n) (kz_of lam n (cos_in beta n)) (fst vw) (snd vw) n0 (cos_in beta n0) z = Ok (f z)) /\
    is_RInt f 0 d (nth (S i) A 0).
Proof.
  intros H0 H Hf En Hc O vw.
  destruct (powers_out_passive pol lam beta n0 l nf Hpol Hlam Hbeta H0 H Hf) as (HP & _ & _). cbv zeta in HP.
  set (t := (1 / m00 (mt pol lam beta n0 l nf))%C) in *. set (a := A0 pol n0 (cos_in beta n0)) in *.
  set (F := fluxes pol lam beta l nf t) in *.
  assert (Hi : (i < length l)%nat) by (apply nth_error_Some; congruence).
  assert (LF : length F = S (length l)) by apply fluxes_length.
  set (L := 1 :: map (fun f => f / a) F) in *.
  assert (LL : length L = S (S (length l))) by (unfold L; cbn [length]; now rewrite map_length, LF).
  assert (Pa : 0 < a).
  { unfold a. rewrite (A0_cond pol beta n0 Hpol). destruct (passive_med pol beta n0 Hpol Hbeta H0) as (_ & _ & P & _). exact P. }
  assert (Ai : nth (S i) (map clamp0 (drops L)) 0 = nth i F 0 / a - nth (S i) F 0 / a /\ nth (S i) F 0 / a <= nth i F 0 / a).
  { assert (DL : nth (S i) (drops L) 0 = nth i F 0 / a - nth (S i) F 0 / a).
    { rewrite drops_nth by lia. unfold L. cbn [nth].
      assert (Mn : forall j, nth j (map (fun f => f / a) F) 0 = nth j F 0 / a).
      { intros j. transitivity (nth j (map (fun f => f / a) F) (0 / a)); [f_equal; unfold Rdiv; ring|apply (map_nth (fun f => f / a))]. }
      rewrite !Mn. reflexivity. }
    assert (NI := fluxes_nonincr pol lam beta l nf t Hpol Hlam Hbeta H Hf). fold F in NI.
    assert (Step : nth (S i) F 0 <= nth i F 0) by (apply nonincr_step; [exact NI|lia]).
    assert (Le : nth (S i) F 0 / a <= nth i F 0 / a).
    { unfold Rdiv. apply Rmult_le_compat_r; [left; now apply Rinv_0_lt_compat|exact Step]. }
    split; [|exact Le].
    transitivity (nth (S i) (map clamp0 (drops L)) (clamp0 0)).
    { f_equal. unfold clamp0. destruct (Rlt_dec 0 0); reflexivity. }
    rewrite map_nth, DL. unfold clamp0. destruct (Rlt_dec _ 0) as [N|_]; [lra|reflexivity]. }
  destruct Ai as [Ai Le].
  destruct (C82_density pol n (cos_in beta n) lam (fst vw) (snd vw) n0 (cos_in beta n0) Hpol Hlam) as (P & f & P1 & P2 & _ & P4).
  exists (map clamp0 (drops L)), f. split; [unfold absorp_in_each_layer, O; rewrite HP; reflexivity|].
  split; [rewrite map_length, drops_length, LL; lia|]. split; [rewrite Ai; lra|]. split; [exact P2|].
  destruct (flux_continuous pol lam beta l nf t i n d n0 (cos_in beta n0) Hpol Hlam Hbeta H Hf En Hc) as [F1 F2].
  fold (amps n0 l nf) in F1, F2. fold vw in F1, F2. fold a F in F1, F2.
  rewrite P1 in F1, F2. injection F1 as F1. injection F2 as F2.
  rewrite Ai, <- F1, <- F2. apply P4.
Qed.
Lemma fill_from_out n0 l nf i n d : nth_error l i = Some (n, d) ->
  let vw := nth i (amps n0 l nf) (RtoC 0, RtoC 0) in
  fill_from (out pol lam beta n0 (cos_in beta n0) l nf) (S i)
  = fill_in pol n (cos_in beta n) (kz_of lam n (cos_in beta n)) (fst vw) (snd vw) n0 (cos_in beta n0) d.
Proof.
  intros En vw. assert (Hi : (i < length l)%nat) by (apply nth_error_Some; congruence).
  unfold fill_from, out. cbn [cd_vw cd_pol cd_n cd_cos cd_kz cd_cos0 cd_d].
  assert (LN : (S i < length (stack_n n0 l nf))%nat).
  { unfold stack_n. cbn [length]. rewrite app_length, map_length. cbn. lia. }
  rewrite (nth_indep (map (cos_in beta) (stack_n n0 l nf)) (RtoC 0) (cos_in beta 0)) by (now rewrite map_length).
  rewrite map_nth.
  rewrite (nth_indep (map (fun n => kz_of lam n (cos_in beta n)) (stack_n n0 l nf)) (RtoC 0) (kz_of lam 0 (cos_in beta 0)))
    by (now rewrite map_length).
  rewrite (map_nth (fun n => kz_of lam n (cos_in beta n))).
  change (nth (S i) (stack_n n0 l nf) (RtoC 0)) with (nth i (map fst l ++ [nf]) (RtoC 0)).
  change (hd (RtoC 0) (stack_n n0 l nf)) with n0.
  assert (Nn : nth i (map fst l ++ [nf]) (RtoC 0) = n).
  { rewrite nxt_skipn by lia. rewrite (skipn_nth_cons l i (RtoC 0, 0) Hi), (nth_error_nth _ _ _ En). reflexivity. }
  rewrite Nn. cbn [nth]. fold (amps n0 l nf). fold vw. f_equal.
  unfold stack_d. cbn [nth]. rewrite app_nth1 by (rewrite map_length; lia).
  assert (E : nth_error (map (fun x : C * R => Some (snd x)) l) i = Some (Some d)) by (rewrite nth_error_map, En; reflexivity).
  now rewrite (nth_error_nth _ _ _ E).
Qed.
End Density.

(** * The analytic function of a layer seen from both sides *)
Lemma fill_in_nonneg pol lam beta n n0 v w d : valid_pol pol -> 0 < lam -> 0 <= beta -> passive beta n -> passive beta n0 ->
  let f := fill_in pol n (cos_in beta n) (kz_of lam n (cos_in beta n)) v w n0 (cos_in beta n0) d in
  0 <= f_A1 f /\ 0 <= f_A2 f.
Proof.
  intros Hp Hl Hb P P0 f.
  destruct (passive_k beta n Hb P) as [(K1 & K2 & _) _].
  destruct (passive_med pol beta n Hp Hb P) as (_ & _ & C1 & _).
  destruct (passive_med pol beta n0 Hp Hb P0) as (_ & _ & C0 & _).
  assert (Hk : kz_of lam n (cos_in beta n) = ((2 * PI / lam) * Re (n * cos_in beta n)%C, (2 * PI / lam) * Im (n * cos_in beta n)%C)).
  { assert (Q := delta_parts lam n (cos_in beta n) 1 Hl).
    replace (kz_of lam n (cos_in beta n)) with (kz_of lam n (cos_in beta n) * 1)%C by ring. rewrite Q. apply C_eq; cbn; field; lra. }
  assert (Pk : 0 < 2 * PI / lam) by (apply Rdiv_lt_0_compat; [assert (Q := PI_RGT_0); lra|exact Hl]).
  assert (HT : exists t, 0 <= t /\ f_A1 f = t * Cmod w ^ 2 /\ f_A2 f = t * Cmod v ^ 2).
  { unfold f, fill_in, cond, fa, fb, med in *. destruct Hp as [->| ->]; cbn [String.eqb Ascii.eqb Bool.eqb fst snd f_A1 f_A2] in *.
    - eexists. split; [|split; reflexivity]. rewrite Hk.
      set (k0 := (n * cos_in beta n)%C) in *. set (x := 2 * PI / lam) in *.
      replace (Im (k0 * (((x * Re k0)%R, (x * Im k0)%R) : C))%C) with (2 * x * (Re k0 * Im k0)) by (destruct k0 as [p q]; cbn; ring).
      replace (Re (Cconj 1 * (n0 * cos_in beta n0))%C) with (Re (n0 * cos_in beta n0)%C) in C0.
      2:{ destruct (n0 * cos_in beta n0)%C as [p q]. cbn. ring. }
      unfold Rdiv at 1. apply Rmult_le_pos; [|left; now apply Rinv_0_lt_compat].
      apply Rmult_le_pos; [lra|]. apply Rmult_le_pos; lra.
    - eexists. split; [|split; reflexivity]. rewrite Hk. cbn [Im snd].
      replace (Re (Cconj n * cos_in beta n)%C) with (Re (n * Cconj (cos_in beta n))%C) in C1.
      2:{ destruct n, (cos_in beta (r, r0)). cbn. ring. }
      replace (Re (Cconj n0 * cos_in beta n0)%C) with (Re (n0 * Cconj (cos_in beta n0))%C) in C0.
      2:{ destruct n0, (cos_in beta (r, r0)). cbn. ring. }
      unfold Rdiv at 1. apply Rmult_le_pos; [|left; now apply Rinv_0_lt_compat].
      apply Rmult_le_pos; [|lra]. apply Rmult_le_pos; [lra|]. apply Rmult_le_pos; lra. }
  destruct HT as (t & Ht & -> & ->). split; apply Rmult_le_pos; try exact Ht; apply pow2_ge_0.
Qed.
Lemma exp_200 : exp 200 <= 10 ^ 87.
Proof.
  assert (E1 : exp (/ 1000) <= 1000 / 999).
  { assert (Q := exp_ineq1_le (- / 1000)). assert (P := exp_pos (/ 1000)).
    assert (M : exp (- / 1000) * exp (/ 1000) = 1).
    { rewrite <- exp_plus. replace (- / 1000 + / 1000) with 0 by ring. apply exp_0. }
    assert (999 / 1000 <= exp (- / 1000)) by lra. nra. }
  assert (E2 : exp 1 <= 272 / 100).
  { replace 1 with (INR 1000 * (/ 1000)) by (rewrite INR_IZR_INZ; cbn; lra). rewrite exp_INR.
    apply (Rle_trans _ ((1000 / 999) ^ 1000)).
    - apply pow_incr. split; [left; apply exp_pos|exact E1].
    - unfold Rdiv. rewrite Rpow_mult_distr, pow_inv.
      apply (Rmult_le_reg_r (999 ^ 1000)); [apply pow_lt; lra|].
      rewrite Rmult_assoc, Rinv_l, Rmult_1_r by (apply pow_nonzero; lra).
      apply (Rmult_le_reg_l 100); [lra|].
      replace (100 * (272 * / 100 * 999 ^ 1000)) with (272 * 999 ^ 1000) by (field).
      rewrite !pow_IZR, <- !mult_IZR. apply IZR_le. now vm_compute. }
  replace 200 with (INR 200 * 1) by (rewrite INR_IZR_INZ; cbn; lra). rewrite exp_INR.
  apply (Rle_trans _ ((272 / 100) ^ 200)).
  - apply pow_incr. split; [left; apply exp_pos|exact E2].
  - unfold Rdiv. rewrite Rpow_mult_distr, pow_inv.
    apply (Rmult_le_reg_r (100 ^ 200)); [apply pow_lt; lra|].
    rewrite Rmult_assoc, Rinv_l, Rmult_1_r by (apply pow_nonzero; lra).
    rewrite !pow_IZR, <- !mult_IZR. apply IZR_le. now vm_compute.
Qed.
Lemma run_array_close f z : 0 <= f_A1 f -> f_a1 f * z <= 200 ->
  Rabs (Re (run_array f z) - Re (run_scalar f z)) <= / 10 ^ 13.
Proof.
  intros HA Hz. unfold run_array, run_scalar.
  set (r2 := (f_A2 f * exp (- f_a1 f * z))%R). set (c3 := (f_A3 f * _)%C). set (c4 := (Cconj (f_A3 f) * _)%C). clearbody r2 c3 c4.
  assert (P13 : 0 < / 10 ^ 13) by (apply Rinv_0_lt_compat, pow_lt; lra).
  destruct (Rlt_dec (f_A1 f) (/ 10 ^ 100)) as [L|L].
  - replace (Re (0 + r2 + c3 + c4)%C - Re ((f_A1 f * exp (f_a1 f * z))%R + r2 + c3 + c4)%C) with (- (f_A1 f * exp (f_a1 f * z)))
      by (destruct c3, c4; cbn; ring).
    rewrite Rabs_Ropp, Rabs_pos_eq by (apply Rmult_le_pos; [exact HA|left; apply exp_pos]).
    assert (E : exp (f_a1 f * z) <= 10 ^ 87).
    { apply (Rle_trans _ (exp 200)); [|exact exp_200]. destruct Hz as [Hz| ->]; [left; now apply exp_increasing|lra]. }
    apply (Rle_trans _ (/ 10 ^ 100 * 10 ^ 87)).
    + apply Rmult_le_compat; [exact HA|left; apply exp_pos|lra|exact E].
    + right. replace (10 ^ 100) with (10 ^ 13 * 10 ^ 87) by (rewrite <- pow_add; reflexivity).
      rewrite Rinv_mult. rewrite Rmult_assoc, Rinv_l by (apply pow_nonzero; lra). ring.
  - rewrite Rminus_diag_eq by reflexivity. rewrite Rabs_R0. lra.
Qed.

(** The wavevector of a layer is not in the range that [fill_in] sets to zero. *)
Definition wave_ok (lam beta : R) (n : C) : Prop :=
  let kz := kz_of lam n (cos_in beta n) in / 10 ^ 30 <= 2 * Re kz /\ (Im kz = 0 \/ / 10 ^ 30 <= 2 * Im kz).
Lemma nth_error_rev {X} (l : list X) i x : nth_error l i = Some x -> nth_error (rev l) (length l - 1 - i) = Some x.
Proof.
  intros H. assert (Hi : (i < length l)%nat) by (apply nth_error_Some; congruence).
  rewrite (nth_error_nth' _ x) by (rewrite rev_length; lia). rewrite rev_nth by lia.
  replace (length l - S (length l - 1 - i))%nat with i by lia. f_equal. now apply nth_error_nth.
Qed.
Lemma nth_inner (l : list R) i : (S (S i) < length l)%nat -> nth i (inner l) 0 = nth (S i) l 0.
Proof.
  intros H. unfold inner. destruct l as [|x l]; [cbn in H; lia|]. cbn [tl]. rewrite nth_removelast by (cbn in H; lia). reflexivity.
Qed.
Lemma inner_length {X} (l : list X) : length (inner l) = (length l - 2)%nat.
Proof. unfold inner. destruct l as [|x l]; [reflexivity|]. cbn [tl]. rewrite removelast_length. cbn [length]. lia. Qed.
Lemma combine_rev_nth (a b : list R) F B i : length a = length b -> (i < length a)%nat ->
  nth i (map (fun xy => F * fst xy + B * snd xy) (combine a (rev b))) 0 = F * nth i a 0 + B * nth (length b - 1 - i) b 0.
Proof.
  intros L Hi.
  rewrite (nth_indep _ 0 ((fun xy => F * fst xy + B * snd xy) (0, 0))) by (rewrite map_length, combine_length, rev_length; lia).
  rewrite (map_nth (fun xy => F * fst xy + B * snd xy)), combine_nth by (now rewrite rev_length). cbn [fst snd].
  rewrite rev_nth by lia. replace (length b - S i)%nat with (length b - 1 - i)%nat by lia. reflexivity.
Qed.
Lemma is_RInt_mirror (g : R -> R) d v : is_RInt g 0 d v -> is_RInt (fun z => g (d - z)) 0 d v.
Proof.
  intros H. assert (Q := @is_RInt_comp_lin R_NormedModule g (-1) d 0 d (opp v)).
  replace (-1 * 0 + d) with d in Q by ring. replace (-1 * d + d) with 0 in Q by ring.
  specialize (Q (is_RInt_swap _ _ _ _ H)).
  assert (Q2 := is_RInt_opp _ _ _ _ Q). rewrite opp_opp in Q2.
  eapply is_RInt_ext; [|exact Q2]. intros z _. unfold opp, scal; cbn. unfold mult; cbn.
  replace (-1 * z + d) with (d - z) by ring. ring.
Qed.
Lemma joint_fn pol lam beta (n : C) cl (n' : C) i m d F B : valid_pol pol -> 0 < lam -> 0 <= beta ->
  jok pol lam beta (n, cl, n') -> nth_error cl i = Some (m, d) -> 0 <= F -> 0 <= B ->
  Im (kz_of lam m (cos_in beta m) * d)%C <= 100 -> wave_ok lam beta m ->
  let D := dat pol lam beta (n, cl, n') in let D' := bdat pol lam beta (n, cl, n') in
  exists f A fn, stack_absorp F B D D' = Ok A /\ length A = length cl /\ 0 <= nth i A 0 /\ is_RInt f 0 d (nth i A 0) /\
    add [scale F (fill_from D (S i))] [flip (scale B (fill_from D' (length (cd_n D') - 1 - S i)))] = Ok [fn] /\
    forall z, 0 <= z <= d -> Rabs (Re (run_array fn z) - f z) <= / 10 ^ 13.
Proof.
  intros Hp Hl Hb (P & P' & M) En HF HB Hc (W1 & W2) D D'.
  assert (Hi : (i < length cl)%nat) by (apply nth_error_Some; congruence).
  assert (Hm : medium_ok pol lam beta (m, d)) by (apply (proj1 (Forall_forall _ _) M); now apply nth_error_In in En).
  destruct Hm as (Pm & Hd & _). cbn [fst snd] in Pm, Hd.
  assert (En' := nth_error_rev cl i _ En). set (i' := (length cl - 1 - i)%nat) in *.
  destruct (passive_density pol lam beta Hp Hl Hb n cl n' i m d P M P' En Hc) as (A1 & f & EA1 & LA1 & NA1 & Ef & If).
  destruct (passive_density pol lam beta Hp Hl Hb n' (rev cl) n i' m d P' (medium_rev pol lam beta _ M) P En' Hc)
    as (A2 & g & EA2 & LA2 & NA2 & Eg & Ig). rewrite rev_length in LA2.
  fold D in EA1. fold D' in EA2. change (out pol lam beta n (cos_in beta n) cl n') with D in EA1.
  change (out pol lam beta n' (cos_in beta n') (rev cl) n) with D' in EA2.
  set (kz := kz_of lam m (cos_in beta m)) in *.
  set (vw := nth i (amps pol lam beta n cl n') (RtoC 0, RtoC 0)) in *.
  set (vw' := nth i' (amps pol lam beta n' (rev cl) n) (RtoC 0, RtoC 0)) in *.
  assert (F1 : fill_from D (S i) = fill_in pol m (cos_in beta m) kz (fst vw) (snd vw) n (cos_in beta n) d)
    by (exact (fill_from_out pol lam beta n cl n' i m d En)).
  assert (LD : (length (cd_n D') - 1 - S i)%nat = S i').
  { unfold D', bdat, out. cbn [cd_n]. unfold stack_n. cbn [length]. rewrite app_length, map_length, rev_length. cbn. unfold i'. lia. }
  assert (F2 : fill_from D' (S i') = fill_in pol m (cos_in beta m) kz (fst vw') (snd vw') n' (cos_in beta n') d)
    by (exact (fill_from_out pol lam beta n' (rev cl) n i' m d En')).
  rewrite LD, F1, F2.
  set (f1 := fill_in pol m (cos_in beta m) kz (fst vw) (snd vw) n (cos_in beta n) d) in *.
  set (f2 := fill_in pol m (cos_in beta m) kz (fst vw') (snd vw') n' (cos_in beta n') d) in *.
  assert (a1 : forall v w n0 c0, f_a1 (fill_in pol m (cos_in beta m) kz v w n0 c0 d) = cut30 (2 * Im kz) /\
               f_a3 (fill_in pol m (cos_in beta m) kz v w n0 c0 d) = cut30 (2 * Re kz) /\
               f_d (fill_in pol m (cos_in beta m) kz v w n0 c0 d) = d).
  { intros. unfold fill_in. destruct (String.eqb pol "s"); repeat split; reflexivity. }
  assert (X1 := a1 (fst vw) (snd vw) n (cos_in beta n)). assert (X2 := a1 (fst vw') (snd vw') n' (cos_in beta n')).
  fold f1 in X1. fold f2 in X2. destruct X1 as (X1 & X1' & X1''), X2 as (X2 & X2' & X2'').
  assert (R1 : forall z, run_scalar f1 z = RtoC (f z)).
  { intros z. destruct (C82_analytic pol m (cos_in beta m) lam (fst vw) (snd vw) n (cos_in beta n) d z Hp Hl) as (a & Q1 & Q2).
    { right. fold kz. exact W1. } { fold kz. destruct W2 as [W2|W2]; [left; lra|right; exact W2]. }
    fold kz in Q1, Q2. rewrite Ef in Q1. injection Q1 as <-. exact Q2. }
  assert (R2 : forall z, run_scalar f2 z = RtoC (g z)).
  { intros z. destruct (C82_analytic pol m (cos_in beta m) lam (fst vw') (snd vw') n' (cos_in beta n') d z Hp Hl) as (a & Q1 & Q2).
    { right. fold kz. exact W1. } { fold kz. destruct W2 as [W2|W2]; [left; lra|right; exact W2]. }
    fold kz in Q1, Q2. rewrite Eg in Q1. injection Q1 as <-. exact Q2. }
  set (fn := add1 (scale F f1) (flip (scale B f2))).
  exists (fun z => F * f z + B * g (d - z)), (map (fun xy => F * fst xy + B * snd xy) (combine (inner A1) (rev (inner A2)))), fn.
  assert (I1 : length (inner A1) = length cl) by (rewrite inner_length; lia).
  assert (I2 : length (inner A2) = length cl) by (rewrite inner_length; lia).
  assert (Ni : nth i (map (fun xy => F * fst xy + B * snd xy) (combine (inner A1) (rev (inner A2)))) 0
               = F * nth (S i) A1 0 + B * nth (S i') A2 0).
  { rewrite combine_rev_nth by lia. rewrite I2. fold i'. rewrite !nth_inner by (unfold i'; lia). reflexivity. }
  split; [unfold stack_absorp; rewrite EA1; cbn [bindR]; rewrite EA2; reflexivity|].
  split; [rewrite map_length, combine_length, rev_length; lia|].
  split; [rewrite Ni; apply Rplus_le_le_0_compat; apply Rmult_le_pos; assumption|].
  split.
  { rewrite Ni. apply (is_RInt_plus (fun z => F * f z) (fun z => B * g (d - z))).
    - exact (is_RInt_scal f 0 d F _ If).
    - exact (is_RInt_scal (fun z => g (d - z)) 0 d B _ (is_RInt_mirror g d _ Ig)). }
  assert (Sa : f_a1 (flip (scale B f2)) = f_a1 (scale F f1) /\ f_a3 (flip (scale B f2)) = f_a3 (scale F f1)).
  { cbn [flip scale f_a1 f_a3]. rewrite X1, X1', X2, X2'. split; reflexivity. }
  split.
  { unfold add. cbn [combine forallb]. unfold differ. cbn [fst snd]. destruct Sa as [-> ->].
    destruct (Req_EM_T (f_a1 (scale F f1)) (f_a1 (scale F f1))) as [_|Q]; [|congruence].
    destruct (Req_EM_T (f_a3 (scale F f1)) (f_a3 (scale F f1))) as [_|Q]; [|congruence]. reflexivity. }
  intros z Hz.
  destruct (C46_operations_partial (scale F f1) (flip (scale B f2)) z 0) as (_ & _ & _ & _ & O1).
  specialize (O1 (proj1 Sa) (proj2 Sa)). fold fn in O1.
  destruct (C46_operations_partial f1 f1 z F) as (_ & _ & O2 & _ & _).
  destruct (C46_operations_partial (scale B f2) f1 z 0) as (O3 & _).
  destruct (C46_operations_partial f2 f1 (f_d (scale B f2) - z) B) as (_ & _ & O4 & _ & _).
  rewrite O2, O3, O4, R1, R2 in O1. cbn [scale f_d] in O1. rewrite X2'' in O1.
  replace (F * f z + B * g (d - z)) with (Re (run_scalar fn z)) by (rewrite O1; cbn; ring).
  apply run_array_close.
  - unfold fn, add1. cbn [f_A1 scale flip f_A2 f_a1 f_d].
    destruct (fill_in_nonneg pol lam beta m n (fst vw) (snd vw) d Hp Hl Hb Pm P) as [N1 _].
    destruct (fill_in_nonneg pol lam beta m n' (fst vw') (snd vw') d Hp Hl Hb Pm P') as [_ N2].
    fold kz in N1, N2. fold f1 in N1. fold f2 in N2.
    apply Rplus_le_le_0_compat; [now apply Rmult_le_pos|]. apply Rmult_le_pos; [now apply Rmult_le_pos|left; apply exp_pos].
  - unfold fn, add1. cbn [f_a1 scale]. rewrite X1.
    assert (Hc' : Im kz * d <= 100).
    { replace (Im kz * d) with (Im (kz * d)%C) by (destruct kz; cbn; ring). exact Hc. }
    unfold cut30. destruct (Rlt_dec _ _) as [L|L]; [lra|].
    assert (0 <= 2 * Im kz) by (assert (T := tiny_pos); lra). nra.
Qed.

(** * Finding a layer of a partly incoherent structure *)
(** The number of coherent stacks among the first segments. *)
Fixpoint stacks_in (l : list seg) : nat :=
  match l with [] => 0%nat | s :: r => match fst s with [] => stacks_in r | _ => S (stacks_in r) end end.
(** The index of the first layer of the segment after [l1] in the whole structure. *)
Definition first_layer (n0 : C) (l1 : list seg) : nat := length (all_n n0 l1).
Lemma seg_n_length s : length (seg_n s) = S (length (fst s)).
Proof. unfold seg_n. rewrite app_length, map_length. cbn. lia. Qed.
Lemma sfa_at : forall l1 j0 (s : seg) l2 i, (i < length (fst s))%nat ->
  nth_error (x_sfa j0 (l1 ++ s :: l2)) (length (concat (map seg_n l1)) + i) = Some (Some ((j0 + stacks_in l1)%nat, S i)).
Proof.
  induction l1 as [|[cl nd] l1 IH]; intros j0 s l2 i Hi.
  - cbn [app map concat length Nat.add x_sfa stacks_in]. destruct s as [cl nd]. cbn [fst] in *.
    destruct cl as [|x cl]; [cbn in Hi; lia|]. set (m := length (x :: cl)) in *.
    rewrite nth_error_app1 by (rewrite map_length, seq_length; exact Hi).
    rewrite nth_error_map, (nth_error_nth' _ 0%nat) by (now rewrite seq_length). rewrite seq_nth by exact Hi. cbn.
    rewrite Nat.add_0_r. reflexivity.
  - cbn [app map concat x_sfa stacks_in fst]. rewrite app_length, seg_n_length. cbn [fst]. destruct cl as [|x cl].
    + cbn [length Nat.add nth_error]. rewrite (IH j0 s l2 i Hi). reflexivity.
    + set (m := length (x :: cl)) in *. rewrite nth_error_app2 by (rewrite map_length, seq_length; lia).
      rewrite map_length, seq_length. replace (S m + length (concat (map seg_n l1)) + i - m)%nat with (S (length (concat (map seg_n l1)) + i)) by lia.
      cbn [nth_error]. rewrite (IH (j0 + 1)%nat s l2 i Hi). do 3 f_equal. lia.
Qed.
Lemma stacks_at : forall l1 n k i0 (s : seg) l2, fst s <> [] ->
  exists jt kk, nth_error (joints n (l1 ++ s :: l2)) (length l1) = Some jt /\ snd (fst jt) = fst s /\
    nth_error (x_stacks n k (l1 ++ s :: l2)) (stacks_in l1) = Some (jt, kk) /\
    nth_error (x_ifs i0 (l1 ++ s :: l2)) (stacks_in l1) = Some (i0 + length l1)%nat.
Proof.
  induction l1 as [|[cl nd] l1 IH]; intros n k i0 s l2 Hs.
  - destruct s as [cl [n' d]]. cbn [fst] in Hs. destruct cl as [|x cl]; [congruence|].
    exists (n, x :: cl, n'), k. cbn [app joints x_stacks x_ifs stacks_in length nth_error fst snd]. rewrite Nat.add_0_r. auto.
  - cbn [app joints x_stacks x_ifs stacks_in length nth_error fst snd]. destruct cl as [|x cl].
    + destruct (IH (fst nd) (k + length (@nil (C * R)) + 1)%nat (i0 + 1)%nat s l2 Hs) as (jt & kk & A & B & Q & E).
      exists jt, kk. split; [exact A|]. split; [exact B|]. split; [exact Q|]. rewrite E. f_equal. lia.
    + destruct (IH (fst nd) (k + length (x :: cl) + 1)%nat (i0 + 1)%nat s l2 Hs) as (jt & kk & A & B & Q & E).
      exists jt, kk. split; [exact A|]. split; [exact B|]. split; [exact Q|]. cbn [nth_error]. rewrite E. f_equal. lia.
Qed.
(** The entry of a coherent layer in the list that the loop of lines 1016-1034 builds. *)
Definition stack_at (D : inc_data) (j : nat) : res (list R) :=
  stack_absorp (fst (nth j (id_FB D) (0, 0))) (snd (nth j (id_FB D) (0, 0))) (nth j (id_coh D) no_data) (nth j (id_bcoh D) no_data).
Lemma loop_at D : forall l1 j0 (s : seg) l2 pe L S_ i,
  length pe = S (length (l1 ++ s :: l2)) ->
  absorp_loop D pe (x_sfi j0 (l1 ++ s :: l2)) = Ok L ->
  (forall a x b, l1 = a ++ x :: b -> fst x <> [] -> exists Q, stack_at D (j0 + stacks_in a) = Ok Q /\ length Q = length (fst x)) ->
  stack_at D (j0 + stacks_in l1) = Ok S_ -> (i < length S_)%nat -> fst s <> [] ->
  nth_error L (S (length (concat (map seg_n l1)) + i)) = Some (nth i S_ 0).
Proof.
  induction l1 as [|[cl nd] l1 IH]; intros j0 s l2 pe L S_ i Lp E Hq ES Hi Hs.
  - destruct pe as [|p [|p' pe]]; [discriminate|cbn in Lp; lia|]. cbn [app] in E. destruct s as [cl nd]. cbn [fst] in Hs.
    cbn [x_sfi fst] in E. destruct cl as [|x cl]; [congruence|]. rewrite absorp_loop_cons in E. cbv zeta in E.
    cbn [stacks_in] in ES. rewrite Nat.add_0_r in ES. unfold stack_at in ES. rewrite ES in E. cbn [bindR] in E.
    destruct (absorp_loop D (p' :: pe) _) as [r|]; [|discriminate]. cbn [bindR] in E. apply IncProps.Ok_inj in E. subst L.
    cbn [map concat length Nat.add nth_error]. rewrite nth_error_app1 by exact Hi. now apply nth_error_nth'.
  - destruct pe as [|p [|p' pe]]; [discriminate|cbn in Lp; lia|]. cbn [app length] in Lp.
    cbn [app x_sfi fst] in E. cbn [map concat]. rewrite app_length, seg_n_length. cbn [fst].
    destruct cl as [|x cl].
    + rewrite absorp_loop_cons in E.
      destruct (absorp_loop D (p' :: pe) _) as [r|] eqn:Er; [|discriminate]. cbn [bindR] in E. apply IncProps.Ok_inj in E. subst L.
      cbn [length Nat.add nth_error]. apply (IH j0 s l2 (p' :: pe) r S_ i); [cbn [length] in *; lia|exact Er| |exact ES|exact Hi|exact Hs].
      intros a y b -> Hy. destruct (Hq (([], nd) :: a) y b eq_refl Hy) as (Q & Q1 & Q2). exists Q. auto.
    + rewrite absorp_loop_cons in E. cbv zeta in E.
      destruct (Hq [] (x :: cl, nd) l1 eq_refl) as (Q & Q1 & Q2); [discriminate|]. cbn [stacks_in] in Q1. rewrite Nat.add_0_r in Q1.
      unfold stack_at in Q1. rewrite Q1 in E. cbn [bindR] in E. cbn [fst] in Q2.
      destruct (absorp_loop D (p' :: pe) _) as [r|] eqn:Er; [|discriminate]. cbn [bindR] in E. apply IncProps.Ok_inj in E. subst L.
      replace (S (S (length (x :: cl)) + length (concat (map seg_n l1)) + i))%nat
        with (S (length Q + S (length (concat (map seg_n l1)) + i)))%nat by lia.
      cbn [nth_error]. rewrite nth_error_app2 by lia.
      replace (length Q + S (length (concat (map seg_n l1)) + i) - length Q)%nat with (S (length (concat (map seg_n l1)) + i)) by lia.
      apply (IH (j0 + 1)%nat s l2 (p' :: pe) r S_ i); [cbn [length] in *; lia|exact Er| | |exact Hi|exact Hs].
      * intros a y b -> Hy. destruct (Hq ((x :: cl, nd) :: a) y b eq_refl Hy) as (Q' & Q1' & Q2'). exists Q'.
        cbn [stacks_in fst] in Q1'. replace (j0 + 1 + stacks_in a)%nat with (j0 + S (stacks_in a))%nat by lia. auto.
      * cbn [stacks_in fst] in ES. replace (j0 + 1 + stacks_in l1)%nat with (j0 + S (stacks_in l1))%nat by lia. exact ES.
Qed.
Lemma stack_absorp_length pol lam beta j F B : valid_pol pol -> 0 < lam -> 0 <= beta -> jok pol lam beta j ->
  exists Q, stack_absorp F B (dat pol lam beta j) (bdat pol lam beta j) = Ok Q /\ length Q = length (snd (fst j)).
Proof.
  destruct j as [[n cl] n']. intros Hp Hl Hb (P & P' & M). cbn [fst snd]. unfold stack_absorp, dat, bdat, absorp_in_each_layer.
  destruct (powers_out_passive pol lam beta n cl n' Hp Hl Hb P M P') as (E1 & _).
  destruct (powers_out_passive pol lam beta n' (rev cl) n Hp Hl Hb P' (medium_rev pol lam beta _ M) P) as (E2 & _).
  cbv zeta in E1, E2. rewrite E1. cbn [bindR]. rewrite E2. cbn [bindR]. eexists. split; [reflexivity|].
  rewrite map_length, combine_length, rev_length, !inner_length, !map_length, !drops_length. cbn [length].
  rewrite !map_length, !fluxes_length, rev_length. lia.
Qed.

(** * The coherent layers of a partly incoherent structure *)
Lemma joints_jok pol lam beta : forall l n, l <> [] -> transparent beta n ->
  Forall (fun s : seg => transparent beta (fst (snd s))) (removelast l) ->
  passive beta (fst (snd (last l ([], (RtoC 0, None))))) ->
  Forall (fun s : seg => Forall (medium_ok pol lam beta) (fst s)) l ->
  Forall (jok pol lam beta) (joints n l).
Proof. intros l n H1 H2 H3 H4 H5. apply (joints_ok pol lam beta l n); assumption. Qed.
Lemma fill_exponents pol lam beta n0 l nf i m d : nth_error l i = Some (m, d) ->
  let f := fill_from (out pol lam beta n0 (cos_in beta n0) l nf) (S i) in
  f_a1 f = cut30 (2 * Im (kz_of lam m (cos_in beta m))) /\ f_a3 f = cut30 (2 * Re (kz_of lam m (cos_in beta m))).
Proof.
  intros En f. unfold f. rewrite (fill_from_out pol lam beta n0 l nf i m d En). cbv zeta.
  unfold fill_in. destruct (String.eqb pol "s"); split; reflexivity.
Qed.
Lemma add_agrees f b : f_a1 b = f_a1 f -> f_a3 b = f_a3 f -> add [f] [b] = Ok [add1 f b].
Proof.
  intros E1 E3. unfold add. cbn [combine forallb]. unfold differ. cbn [fst snd]. rewrite E1, E3.
  destruct (Req_EM_T (f_a1 f) (f_a1 f)) as [_|Q]; [|congruence].
  destruct (Req_EM_T (f_a3 f) (f_a3 f)) as [_|Q]; [|congruence]. reflexivity.
Qed.
Lemma rev_place pol lam beta n cl n' i : (i < length cl)%nat ->
  (length (cd_n (bdat pol lam beta (n, cl, n'))) - 1 - S i)%nat = S (length cl - 1 - i).
Proof.
  intros Hi. unfold bdat, out. cbn [cd_n]. unfold stack_n. cbn [length]. rewrite app_length, map_length, rev_length. cbn. lia.
Qed.
Section Layer.
Context (pol : string) (lam beta : R) (Hpol : valid_pol pol) (Hlam : 0 < lam) (Hbeta : 0 <= beta).
Context (n0 s0 : C) (l : list seg) (Hs : (n0 * s0 = beta)%C) (St : structure l) (T0 : transparent beta n0) (S0 : steep beta n0)
  (Sl : Forall (fun s : seg => steep beta (fst (snd s))) l)
  (Ti : Forall (fun s : seg => transparent beta (fst (snd s))) (removelast l))
  (Pl : passive beta (fst (snd (last l ([], (RtoC 0, None))))))
  (Fc : Forall (fun s : seg => Forall (medium_ok pol lam beta) (fst s)) l)
  (NO : Forall (not_opaque pol lam beta) (joints n0 l)).
Lemma layer_data : exists D A, inc_tmm pol (all_n n0 l) (all_d l) (all_c l) s0 lam = Ok D /\
  inc_absorp_in_each_layer D = Ok A /\ Forall (fun x => 0 <= x) A /\ length A = length (all_n n0 l) /\ total A = 1 /\
  (exists As, A = id_R D :: As ++ [id_T D]) /\
  forall l1 cl nd l2 i m d, l = l1 ++ (cl, nd) :: l2 -> nth_error cl i = Some (m, d) ->
    let k := (first_layer n0 l1 + i)%nat in
    exists fn, inc_find_fn k D = Ok fn /\
      (Im (kz_of lam m (cos_in beta m) * d)%C <= 100 -> wave_ok lam beta m ->
       exists f, is_RInt f 0 d (nth k A 0) /\ forall z, 0 <= z <= d -> Rabs (Re (run_array fn z) - f z) <= / 10 ^ 13).
Proof.
  destruct (energy pol lam beta Hpol Hlam Hbeta n0 s0 l Hs St T0 S0 Sl Ti Pl Fc NO)
    as (D & A & E1 & E2 & ((g & (Gi & Ga) & ED) & FBn) & (As & EA & FA) & TA & R0 & HT & _).
  exists D, A. split; [exact E1|]. split; [exact E2|].
  assert (Hl : l <> []) by (destruct St as (inn & clf & nf & -> & _); now destruct inn).
  assert (Jk : Forall (jok pol lam beta) (joints n0 l)) by (apply joints_jok; assumption).
  split.
  { rewrite EA. constructor; [exact R0|]. apply Forall_app. split; [|constructor; [lra|constructor]].
    clear - FA. induction FA as [|c x lc lx H _ IH]; constructor; [apply H|exact IH]. }
  split.
  { assert (LA : length As = length (inner (all_c l))) by (clear - FA; induction FA; cbn; lia).
    rewrite EA. cbn [length]. rewrite app_length, LA, inner_length. cbn [length].
    assert (Q : forall x : list seg, length (concat (map seg_c x)) = length (concat (map seg_n x))).
    { clear. induction x as [|y x IH]; [reflexivity|]. cbn [map concat]. rewrite !app_length, IH, seg_n_length. unfold seg_c.
      rewrite app_length, repeat_length. cbn. lia. }
    unfold all_c, all_n. cbn [length]. rewrite Q.
    assert (Ln : (1 <= length (concat (map seg_n l)))%nat).
    { destruct l as [|y x]; [congruence|]. cbn [map concat]. rewrite app_length, seg_n_length. lia. }
    lia. }
  split; [exact TA|]. split; [now exists As|].
  (* the data of the stack after [l1] *)
  assert (Data : forall l1 s l2, l = l1 ++ s :: l2 -> fst s <> [] ->
    exists jt, jok pol lam beta jt /\ snd (fst jt) = fst s /\
      nth (stacks_in l1) (id_coh D) no_data = dat pol lam beta jt /\
      nth (stacks_in l1) (id_bcoh D) no_data = bdat pol lam beta jt /\
      0 <= fst (nth (stacks_in l1) (id_FB D) (0, 0)) /\ 0 <= snd (nth (stacks_in l1) (id_FB D) (0, 0))).
  { intros l1 s l2 El Hc. destruct (stacks_at l1 n0 1 0 s l2 Hc) as (jt & kk & J1 & J2 & J3 & J4).
    rewrite <- El in J1, J3, J4. exists jt. split.
    { apply (proj1 (Forall_forall _ _) Jk). now apply nth_error_In in J1. }
    split; [exact J2|]. rewrite ED. cbn [id_coh id_bcoh id_FB]. split; [|split].
    - apply nth_error_nth. unfold run_coh. rewrite !nth_error_map, J3. reflexivity.
    - apply nth_error_nth. unfold run_bcoh. rewrite !nth_error_map, J3. reflexivity.
    - rewrite ED in FBn. cbn [id_FB] in FBn. apply (Forall_nth_in (fun fb => 0 <= fst fb /\ 0 <= snd fb)); [exact FBn|].
      unfold run_FB. rewrite map_length. apply nth_error_Some. rewrite J4. discriminate. }
  intros l1 cl nd l2 i m d El En k.
  assert (Hi : (i < length cl)%nat) by (apply nth_error_Some; congruence).
  assert (Hc : fst (cl, nd) <> []) by (cbn [fst]; destruct cl; [cbn in Hi; lia|discriminate]).
  destruct (Data l1 (cl, nd) l2 El Hc) as ([[n cl'] n'] & Hj & Ecl & K1 & K2 & F0 & B0). cbn [fst snd] in Ecl. subst cl'.
  set (FB := nth (stacks_in l1) (id_FB D) (0, 0)) in *.
  assert (Fn : inc_find_fn k D = Ok (add1 (scale (fst FB) (fill_from (dat pol lam beta (n, cl, n')) (S i)))
                  (flip (scale (snd FB) (fill_from (bdat pol lam beta (n, cl, n'))
                     (length (cd_n (bdat pol lam beta (n, cl, n'))) - 1 - S i)))))).
  { unfold inc_find_fn. assert (SA : nth_error (g_stack_from_all (id_group D)) k = Some (Some (stacks_in l1, S i))).
    { rewrite ED. cbn [id_group]. rewrite Ga. unfold k, first_layer, all_n. cbn [length Nat.add nth_error].
      rewrite El. apply (sfa_at l1 0 (cl, nd) l2 i). exact Hi. }
    rewrite SA. fold FB. rewrite K1, K2.
    destruct (fill_exponents pol lam beta n cl n' i m d En) as [X1 X2].
    destruct (fill_exponents pol lam beta n' (rev cl) n (length cl - 1 - i) m d (nth_error_rev cl i _ En)) as [Y1 Y2].
    rewrite add_agrees; [reflexivity| |]; rewrite rev_place by exact Hi; unfold dat, bdat; cbn [flip scale f_a1 f_a3].
    - now rewrite X1, Y1.
    - now rewrite X2, Y2. }
  eexists. split; [exact Fn|]. intros Hcap Hw.
  destruct (joint_fn pol lam beta n cl n' i m d (fst FB) (snd FB) Hpol Hlam Hbeta Hj En F0 B0 Hcap Hw)
    as (f & Q & fn & SQ & LQ & NQ & IQ & EQ & CQ).
  assert (Ef : fn = add1 (scale (fst FB) (fill_from (dat pol lam beta (n, cl, n')) (S i)))
                  (flip (scale (snd FB) (fill_from (bdat pol lam beta (n, cl, n'))
                     (length (cd_n (bdat pol lam beta (n, cl, n'))) - 1 - S i))))).
  { destruct (fill_exponents pol lam beta n cl n' i m d En) as [X1 X2].
    destruct (fill_exponents pol lam beta n' (rev cl) n (length cl - 1 - i) m d (nth_error_rev cl i _ En)) as [Y1 Y2].
    rewrite add_agrees in EQ; [now injection EQ as <-| |]; rewrite rev_place by exact Hi; unfold dat, bdat; cbn [flip scale f_a1 f_a3].
    - now rewrite X1, Y1.
    - now rewrite X2, Y2. }
  rewrite <- Ef. exists f. split; [|exact CQ].
  assert (Nk : nth k A 0 = nth i Q 0).
  { unfold inc_absorp_in_each_layer in E2. destruct (absorp_loop D (id_pe D) (tl (g_stack_from_inc (id_group D)))) as [L|] eqn:EL; [|discriminate].
    cbn [bindR] in E2. apply IncProps.Ok_inj in E2. rewrite ED in EL at 2 3. cbn [id_pe id_group] in EL. rewrite Gi in EL. cbn [tl] in EL.
    assert (NL := loop_at D l1 0 (cl, nd) l2 (run_pe pol lam beta n0 l) L Q i).
    rewrite <- El in NL. assert (LP : length (run_pe pol lam beta n0 l) = S (length l)).
    { unfold run_pe. cbn [length]. rewrite map_length, combine_length, seq_length, sfi_length, Nat.min_id. reflexivity. }
    specialize (NL LP EL). cbn [Nat.add] in NL.
    assert (NLk : nth_error L k = Some (nth i Q 0)).
    { replace k with (S (length (concat (map seg_n l1)) + i)) by (unfold k, first_layer, all_n; cbn [length]; lia).
      apply NL.
      - intros a x b Ea Hx. destruct (Data a x (b ++ (cl, nd) :: l2)) as (jt & Y1 & Y2 & Y3 & Y4 & _).
        { rewrite El, Ea, <- app_assoc. reflexivity. } { exact Hx. }
        unfold stack_at. rewrite Y3, Y4, <- Y2. now apply stack_absorp_length.
      - unfold stack_at. fold FB. rewrite K1, K2. exact SQ.
      - rewrite LQ. exact Hi.
      - exact Hc. }
    rewrite E2. rewrite (nth_indep _ 0 (clamp0 0)).
    2:{ rewrite map_length, app_length. assert (k < length L)%nat by (apply nth_error_Some; congruence). lia. }
    rewrite map_nth, app_nth1 by (apply nth_error_Some; congruence).
    rewrite (nth_error_nth _ _ _ NLk). unfold clamp0. destruct (Rlt_dec _ 0); [lra|reflexivity]. }
  rewrite Nk. exact IQ.
Qed.
End Layer.

(** * C150: what the caller sees *)
Lemma fold_total : forall l a, fold_left Rplus l a = a + total l.
Proof.
  induction l as [|x l IH]; intros a; cbn [fold_left]; [cbn; lra|]. rewrite IH.
  change (total (x :: l)) with (x + total l). lra.
Qed.
Lemma total_split (l : list R) k : total l = total (firstn k l) + total (skipn k l).
Proof.
  revert k. induction l as [|x l IH]; intros [|k]; cbn [firstn skipn]; try (cbn; lra).
  change (total (x :: l)) with (x + total l). change (total (x :: firstn k l)) with (x + total (firstn k l)). rewrite (IH k). lra.
Qed.
Lemma total_nonneg (l : list R) : Forall (fun x => 0 <= x) l -> 0 <= total l.
Proof. induction 1 as [|x l H _ IH]; [cbn; lra|]. change (total (x :: l)) with (x + total l). lra. Qed.
(** Every layer in front of layer [k] has a sample, and nothing in front of the structure does. *)
Definition no_gap (layers : list nat) (k : nat) : Prop := forall j, (j < k)%nat -> In j layers <-> (1 <= j)%nat.
Lemma place_no_gap layers k : (1 <= k)%nat -> no_gap layers k -> place layers k = (k - 1)%nat.
Proof.
  intros Hk H. unfold place. destruct k as [|k]; [lia|]. cbn [seq filter].
  assert (Q : forall j, (j < S k)%nat -> asked layers j = (1 <=? j)%nat).
  { intros j Hj. unfold asked. destruct (1 <=? j)%nat eqn:E.
    - apply Nat.leb_le in E. apply existsb_exists. exists j. split; [now apply H|apply Nat.eqb_refl].
    - apply Nat.leb_gt in E. destruct (existsb (Nat.eqb j) layers) eqn:F; [|reflexivity].
      apply existsb_exists in F. destruct F as (x & Hx & Ex). apply Nat.eqb_eq in Ex. subst x. apply (H j Hj) in Hx. lia. }
  rewrite (Q 0%nat) by lia. cbn [Nat.leb]. 
  assert (G : forall n s, (1 <= s)%nat -> (s + n <= S k)%nat -> length (filter (asked layers) (seq s n)) = n).
  { induction n as [|n IH]; intros s Hs Hn; [reflexivity|]. cbn [seq filter]. rewrite Q by lia.
    replace (1 <=? s)%nat with true by (symmetry; apply Nat.leb_le; lia). cbn [length]. rewrite IH by lia. reflexivity. }
  rewrite G by lia. lia.
Qed.
Lemma inner_layer (l : list seg) (n0 : C) : forall k, nth_error (all_c l) k = Some "c"%string ->
  exists l1 cl nd l2 i m d, l = l1 ++ (cl, nd) :: l2 /\ nth_error cl i = Some (m, d) /\ k = (first_layer n0 l1 + i)%nat.
Proof.
  unfold all_c. intros [|k] H; cbn [nth_error] in H; [discriminate|].
  assert (G : forall (l : list seg) k, nth_error (concat (map seg_c l)) k = Some "c"%string ->
    exists l1 cl nd l2 i m d, l = l1 ++ (cl, nd) :: l2 /\ nth_error cl i = Some (m, d) /\ k = (length (concat (map seg_n l1)) + i)%nat).
  { clear. induction l as [|[cl nd] l IH]; intros k H; [destruct k; discriminate|]. cbn [map concat] in H.
    destruct (Nat.lt_ge_cases k (length (seg_c (cl, nd)))) as [Hk|Hk].
    - rewrite nth_error_app1 in H by exact Hk. unfold seg_c in *. cbn [fst] in *. rewrite app_length, repeat_length in Hk. cbn in Hk.
      destruct (Nat.lt_ge_cases k (length cl)) as [Hk'|Hk'].
      + destruct (nth_error cl k) as [[m d]|] eqn:E; [|apply nth_error_None in E; lia].
        exists [], cl, nd, l, k, m, d. now repeat split.
      + rewrite nth_error_app2 in H by (rewrite repeat_length; exact Hk'). rewrite repeat_length in H.
        replace (k - length cl)%nat with 0%nat in H by lia. discriminate.
    - rewrite nth_error_app2 in H by exact Hk. destruct (IH _ H) as (l1 & cl' & nd' & l2 & i & m & d & E1 & E2 & E3).
      exists ((cl, nd) :: l1), cl', nd', l2, i, m, d. split; [cbn; now rewrite E1|]. split; [exact E2|].
      cbn [map concat]. rewrite app_length, seg_n_length. unfold seg_c in *. cbn [fst] in *.
      rewrite app_length, repeat_length in E3, Hk. cbn in E3, Hk. cbn [fst]. lia. }
  destruct (G l k H) as (l1 & cl & nd & l2 & i & m & d & E1 & E2 & E3).
  exists l1, cl, nd, l2, i, m, d. split; [exact E1|]. split; [exact E2|]. rewrite E3. reflexivity.
Qed.
Lemma mapRR_all {X Y} (f : X -> res Y) : forall l, (forall x, In x l -> exists y, f x = Ok y) ->
  exists ys, mapRR f l = Ok ys /\ length ys = length l /\ forall q x, nth_error l q = Some x -> exists y, nth_error ys q = Some y /\ f x = Ok y.
Proof.
  induction l as [|x l IH]; intros H.
  - exists []. split; [reflexivity|]. split; [reflexivity|]. intros [|q] x; discriminate.
  - destruct (H x (or_introl eq_refl)) as (y & Ey). destruct IH as (ys & E & L & N); [intros z Hz; apply H; now right|].
    exists (y :: ys). cbn [mapRR]. rewrite Ey. cbn [bindR]. rewrite E. split; [reflexivity|]. split; [cbn; congruence|].
    intros [|q] z Hz; cbn [nth_error] in *; [injection Hz as <-; now exists y|now apply N].
Qed.

(** The absorption profile asked for at any set of positions of a partly incoherent structure is
    computed, and in a coherent layer all of whose layers in front have a sample it is,
    to within 1e-13 per nanometre, a density that integrates over the layer to the light that
    [inc_absorp_in_each_layer] says the layer absorbs - unless less than the threshold of the
    light reaches that layer, in which case it is zero. *)
Theorem C150_coherent_partial : forall pol (n0 th lam : R) l l1 cl nd l2 i (m : C) d,
  valid_pol pol -> 0 < lam -> 0 < n0 -> 0 <= th < PI / 2 ->
  let beta := n0 * sin th in
  structure l -> steep beta n0 -> Forall (fun s : seg => steep beta (fst (snd s))) l ->
  Forall (fun s : seg => transparent beta (fst (snd s))) (removelast l) ->
  passive beta (fst (snd (last l ([], (RtoC 0, None))))) ->
  Forall (fun s : seg => Forall (medium_ok pol lam beta) (fst s)) l ->
  Forall (not_opaque pol lam beta) (joints n0 l) ->
  l = l1 ++ (cl, nd) :: l2 -> nth_error cl i = Some (m, d) ->
  Im (kz_of lam m (cos_in beta m) * d)%C <= 100 -> wave_ok lam beta m ->
  let k := (length (all_n n0 l1) + i)%nat in
  exists D A f,
    inc_tmm pol (all_n n0 l) (all_d l) (all_c l) (sin th) lam = Ok D /\
    inc_absorp_in_each_layer D = Ok A /\ is_RInt f 0 d (nth k A 0) /\
    forall samples alphas thr,
      Forall (fun s => (fst s < length (all_n n0 l))%nat) samples -> length alphas = length (all_n n0 l) ->
      exists xs, inc_position_resolved samples D (all_c l) alphas thr = Ok xs /\ length xs = length samples /\
        (no_gap (map fst samples) k ->
         forall q z, nth_error samples q = Some (k, z) -> 0 <= z <= d ->
           let reached := 1 - total (firstn k A) in
           (reached < thr -> nth q xs 0 = 0) /\ (thr <= reached -> Rabs (nth q xs 0 - f z) <= / 10 ^ 13)).
Proof.
  intros pol n0 th lam l l1 cl nd l2 i m d Hpol Hlam Hn0 Hth beta St S0 Sl Ti Pl Fc NO El En Hcap Hw k.
  assert (Hsin : 0 <= sin th) by (apply sin_ge_0; lra).
  assert (Hb : 0 <= beta) by (unfold beta; nra).
  assert (Hs1 : sin th < 1) by (rewrite <- sin_PI2; apply sin_increasing_1; lra).
  assert (T0 : transparent beta n0).
  { unfold transparent, beta. cbn [RtoC Re Im fst snd]. split; [reflexivity|]. split; [exact Hn0|]. nra. }
  destruct (layer_data pol lam beta Hpol Hlam Hb n0 (sin th) l (sin_cos_pol_beta n0 th) St T0 S0 Sl Ti Pl Fc NO)
    as (D & A & E1 & E2 & NA & LA & TA & _ & H).
  destruct (H l1 cl nd l2 i m d El En) as (fn & F1 & F2). destruct (F2 Hcap Hw) as (f & If & Cf). clear F2.
  exists D, A, f. split; [exact E1|]. split; [exact E2|]. split; [exact If|].
  intros samples alphas thr Hin La.
  assert (Lc : length (all_c l) = length (all_n n0 l)).
  { unfold all_c, all_n. cbn [length]. f_equal. clear. induction l as [|y x IH]; [reflexivity|]. cbn [map concat].
    rewrite !app_length, IH, seg_n_length. unfold seg_c. rewrite app_length, repeat_length. cbn. lia. }
  destruct (mapRR_all (inc_sample samples D A (all_c l) alphas thr) samples) as (xs & Ex & Lx & Nx).
  { intros [k' z'] Hin'. apply (proj1 (Forall_forall _ _) Hin) in Hin'. cbn [fst] in Hin'. unfold inc_sample. cbn [fst snd].
    destruct (nth_error (all_c l) k') as [c|] eqn:Ec; [|apply nth_error_None in Ec; lia].
    destruct (String.eqb c "c") eqn:Es.
    - apply String.eqb_eq in Es. subst c. destruct (inner_layer l n0 k' Ec) as (l1' & cl' & nd' & l2' & i' & m' & d' & X1 & X2 & X3).
      destruct (H l1' cl' nd' l2' i' m' d' X1 X2) as (fn' & Y & _). fold (first_layer n0 l1') in Y. rewrite <- X3 in Y.
      rewrite Y. cbn [bindR]. eexists. reflexivity.
    - destruct (nth_error alphas k') as [a|] eqn:Ea; [|apply nth_error_None in Ea; lia]. cbn [bindR]. eexists. reflexivity. }
  exists xs. unfold inc_position_resolved. rewrite E2. cbn [bindR]. split; [exact Ex|]. split; [exact Lx|].
  intros NG q z Eq Hz. set (reached := 1 - total (firstn k A)).
  destruct (Nx q _ Eq) as (y & Ny & Ey). rewrite (nth_error_nth _ _ _ Ny).
  unfold inc_sample in Ey. cbn [fst snd] in Ey.
  assert (Ck : nth_error (all_c l) k = Some "c"%string).
  { unfold k, all_c, all_n. cbn [length Nat.add nth_error]. rewrite El, map_app, concat_app. cbn [map concat].
    assert (Q : length (concat (map seg_n l1)) = length (concat (map seg_c l1))).
    { clear. induction l1 as [|s l1 IH]; [reflexivity|]. cbn [map concat]. rewrite !app_length, IH, seg_n_length. unfold seg_c.
      rewrite app_length, repeat_length. cbn. lia. }
    assert (Hi : (i < length cl)%nat) by (apply nth_error_Some; congruence).
    rewrite Q, nth_error_app2 by lia. replace (length (concat (map seg_c l1)) + i - length (concat (map seg_c l1)))%nat with i by lia.
    unfold seg_c at 1. cbn [fst]. rewrite nth_error_app1 by (rewrite app_length, repeat_length; cbn; lia).
    rewrite nth_error_app1 by (rewrite repeat_length; exact Hi). now apply nth_error_repeat. }
  assert (Hk1 : (1 <= k)%nat) by (unfold k, all_n; cbn [length]; lia).
  assert (ER : reaching A (place (map fst samples) k) = reached).
  { unfold reaching. rewrite place_no_gap by assumption. replace (S (k - 1)) with k by lia. rewrite fold_total. unfold reached. lra. }
  rewrite Ck, ER in Ey. cbn [String.eqb Ascii.eqb Bool.eqb] in Ey. fold (first_layer n0 l1) in k. fold k in F1. rewrite F1 in Ey.
  cbn [bindR] in Ey. apply IncProps.Ok_inj in Ey. rewrite Ey. fold k in Cf. 
  split; intros Ht; destruct (Rlt_dec reached thr) as [Q|Q]; try lra; auto.
Qed.

(** [calculate_absorption_profile] of a partly incoherent stack, for s, p or unpolarised light:
    where enough light of each polarisation reaches a coherent layer, the profile is a density
    (to within 1e-13 per nanometre) that integrates over the layer to the absorption that
    [calculate_rat] reports for it. *)
Theorem C150_stack_partial : forall o s wl angle pol (n0 : R) l cs l1 cl nd l2 i (m : C) d,
  forall th, th = angle * PI / 180 ->
  get_indices o s wl = Ok (all_n n0 l) -> get_widths o s = all_d l ->
  st_num s = length cs -> padded (o_noback o) cs = all_c l ->
  0 < wl -> 0 < n0 -> 0 <= th < PI / 2 -> (single pol \/ mixed_light pol) ->
  let beta := n0 * sin th in
  structure l -> steep beta n0 -> Forall (fun s : seg => steep beta (fst (snd s))) l ->
  Forall (fun s : seg => transparent beta (fst (snd s))) (removelast l) ->
  passive beta (fst (snd (last l ([], (RtoC 0, None))))) ->
  (forall q, needed pol q ->
    Forall (fun s : seg => Forall (medium_ok q wl beta) (fst s)) l /\ Forall (not_opaque q wl beta) (joints n0 l)) ->
  l = l1 ++ (cl, nd) :: l2 -> nth_error cl i = Some (m, d) ->
  Im (kz_of wl m (cos_in beta m) * d)%C <= 100 -> wave_ok wl beta m ->
  let k := (length (all_n n0 l1) + i)%nat in
  exists r f,
    calculate_rat o s wl angle pol false (Some cs) = Ok r /\ is_RInt f 0 d (nth k (ra_layers r) 0) /\
    forall zs samples thr, mapRR (find_in_structure_with_inf (get_widths o s)) zs = Ok samples ->
      Forall (fun s => (fst s < length (all_n n0 l))%nat) samples -> no_gap (map fst samples) k ->
      (forall p A, needed pol p -> by_layer_inc (all_n n0 l) (all_d l) (all_c l) th wl p A -> thr <= 1 - total (firstn k A)) ->
      exists xs, inc_profile (o_noback o) (all_n n0 l) (get_widths o s) wl cs r thr zs = Ok xs /\ length xs = length samples /\
        forall q z, nth_error samples q = Some (k, z) -> 0 <= z <= d -> Rabs (nth q xs 0 - f z) <= / 10 ^ 13.
Proof.
  intros o s wl angle pol n0 l cs l1 cl nd l2 i m d th Hdeg Ei Ew En Ec Hwl Hn Hth Hpol beta St S0 Sl Ti Pl Hm El Ent Hcap Hw k.
  replace (angle * PI / 180) with (radians angle) in Hdeg by (unfold radians; field).
  assert (G : forall q, needed pol q -> valid_pol q -> exists D A f,
    inc_tmm q (all_n n0 l) (all_d l) (all_c l) (sin th) wl = Ok D /\
    inc_absorp_in_each_layer D = Ok A /\ length A = length (all_n n0 l) /\ is_RInt f 0 d (nth k A 0) /\
    forall samples alphas thr,
      Forall (fun s => (fst s < length (all_n n0 l))%nat) samples -> length alphas = length (all_n n0 l) ->
      exists xs, inc_position_resolved samples D (all_c l) alphas thr = Ok xs /\ length xs = length samples /\
        (no_gap (map fst samples) k ->
         forall q z, nth_error samples q = Some (k, z) -> 0 <= z <= d ->
           thr <= 1 - total (firstn k A) -> Rabs (nth q xs 0 - f z) <= / 10 ^ 13)).
  { intros q Hq Vq. destruct (Hm q Hq) as [M1 M2].
    destruct (C150_coherent_partial q n0 th wl l l1 cl nd l2 i m d Vq Hwl Hn Hth St S0 Sl Ti Pl M1 M2 El Ent Hcap Hw)
      as (D & A & f & B1 & B2 & B3 & B4).
    exists D, A, f. split; [exact B1|]. split; [exact B2|]. split.
    { assert (Hb : 0 <= beta).
      { assert (0 <= sin th) by (apply sin_ge_0; lra). unfold beta. nra. }
      assert (T0 : transparent beta n0).
      { assert (0 <= sin th) by (apply sin_ge_0; lra). assert (sin th < 1) by (rewrite <- sin_PI2; apply sin_increasing_1; lra).
        unfold transparent, beta. cbn [RtoC Re Im fst snd]. split; [reflexivity|]. split; [exact Hn|]. nra. }
      destruct (layer_data q wl beta Vq Hwl Hb n0 (sin th) l (sin_cos_pol_beta n0 th) St T0 S0 Sl Ti Pl M1 M2)
        as (D' & A' & E1 & E2 & _ & LA & _). rewrite B1 in E1. apply IncProps.Ok_inj in E1. subst D'.
      rewrite B2 in E2. apply IncProps.Ok_inj in E2. subst A'. exact LA. }
    split; [exact B3|]. intros samples alphas thr F La. destruct (B4 samples alphas thr F La) as (xs & X1 & X2 & X3).
    exists xs. split; [exact X1|]. split; [exact X2|]. intros NG q' z Eq Hz Ht. now apply (X3 NG q' z Eq Hz). }
  assert (Lal : length (alphas_of wl (all_n n0 l)) = length (all_n n0 l)) by (unfold alphas_of; apply map_length).
  unfold calculate_rat, check_list. rewrite En, Nat.eqb_refl, Ei, Ew, Ec, <- Hdeg. cbn [bindR]. cbv zeta.
  destruct Hpol as [Hs|Hu].
  - rewrite (single_in_sp _ Hs).
    destruct (G pol (or_introl (conj Hs eq_refl)) Hs) as (D & A & f & B1 & B2 & _ & B3 & B4).
    rewrite B1. cbn [bindR]. rewrite B2. cbn [bindR]. eexists. exists f. split; [reflexivity|]. cbn [ra_layers].
    split; [exact B3|]. intros zs samples thr Es F NG Ht.
    destruct (B4 samples (alphas_of wl (all_n n0 l)) thr F Lal) as (xs & X1 & X2 & X3).
    exists xs. unfold inc_profile. rewrite Es. cbn [bindR ra_out]. rewrite Ec. split; [exact X1|]. split; [exact X2|].
    intros q z Eq Hz. apply (X3 NG q z Eq Hz). apply (Ht pol A); [now left|now exists D].
  - rewrite (mixed_in_sp _ Hu).
    destruct (G "p"%string (or_intror (conj Hu (or_intror eq_refl))) (or_intror eq_refl)) as (Dp & Ap & fp & P1 & P2 & LP & P3 & P4).
    destruct (G "s"%string (or_intror (conj Hu (or_introl eq_refl))) (or_introl eq_refl)) as (Ds & As & fs & Q1 & Q2 & LQ & Q3 & Q4).
    rewrite P1. cbn [bindR]. rewrite Q1. cbn [bindR]. rewrite P2. cbn [bindR]. rewrite Q2. cbn [bindR].
    eexists. exists (fun z => / 2 * (fp z + fs z)). split; [reflexivity|]. cbn [ra_layers].
    split.
    { assert (EH : nth k (halves Ap As) 0 = / 2 * (nth k Ap 0 + nth k As 0)).
      { assert (HL : length Ap = length As) by congruence. unfold halves. clear - HL. revert As HL. generalize k. clear k.
        induction Ap as [|a Ap IH]; intros k [|b As] HL; try discriminate; [destruct k; cbn; lra|].
        destruct k as [|k]; [reflexivity|]. cbn [combine map nth]. apply IH. exact (eq_add_S _ _ HL). }
      rewrite EH. exact (is_RInt_scal _ 0 d (/ 2) _ (is_RInt_plus fp fs 0 d _ _ P3 Q3)). }
    intros zs samples thr Es F NG Ht.
    destruct (P4 samples (alphas_of wl (all_n n0 l)) thr F Lal) as (xp & X1 & X2 & X3).
    destruct (Q4 samples (alphas_of wl (all_n n0 l)) thr F Lal) as (xq & Y1 & Y2 & Y3).
    eexists. unfold inc_profile. rewrite Es. cbn [bindR ra_out]. rewrite Ec, Y1. cbn [bindR]. rewrite X1. cbn [bindR].
    split; [reflexivity|]. split; [rewrite map_length, combine_length; lia|].
    intros q z Eq Hz.
    assert (EN : nth q (map (fun ab => / 2 * (fst ab + snd ab)) (combine xq xp)) 0 = / 2 * (nth q xq 0 + nth q xp 0)).
    { assert (HL : length xq = length xp) by congruence. clear - HL. revert xp q HL.
      induction xq as [|a xq IH]; intros [|b xp] q HL; try discriminate; [destruct q; cbn; lra|].
      destruct q as [|q]; [reflexivity|]. cbn [combine map nth]. apply IH. exact (eq_add_S _ _ HL). }
    rewrite EN.
    assert (K1 := X3 NG q z Eq Hz (Ht _ _ (or_intror (conj Hu (or_intror eq_refl))) (ex_intro _ Dp (conj P1 P2)))).
    assert (K2 := Y3 NG q z Eq Hz (Ht _ _ (or_intror (conj Hu (or_introl eq_refl))) (ex_intro _ Ds (conj Q1 Q2)))).
    apply Rabs_le_between in K1. apply Rabs_le_between in K2. apply Rabs_le. lra.
Qed.

(** In an incoherent layer the profile is an exponential which contains the light absorbed by the
    layer between its front and the deepest sample - so more than that over the whole layer. *)
Theorem C150_incoherent_partial : forall samples D cs alphas thr A k alpha,
  inc_absorp_in_each_layer D = Ok A -> nth_error cs k = Some "i"%string -> nth_error alphas k = Some alpha -> 0 < alpha ->
  (1 <= k)%nat -> no_gap (map fst samples) k ->
  let reached := 1 - total (firstn k A) in
  let zmax := deepest samples k in
  0 < zmax -> reached <> 0 ->
  let f z := nth k A 0 * alpha * exp (- alpha * z) / (1 - exp (- alpha * zmax)) in
  (forall xs, inc_position_resolved samples D cs alphas thr = Ok xs ->
    forall q z, nth_error samples q = Some (k, z) ->
      (reached < thr -> nth q xs 0 = 0) /\ (thr <= reached -> nth q xs 0 = f z)) /\
  is_RInt f 0 zmax (nth k A 0) /\
  (forall d, zmax < d -> 0 < nth k A 0 -> exists I, is_RInt f 0 d I /\ nth k A 0 < I).
Proof.
  intros samples D cs alphas thr A k alpha EA Ec Ea Ha Hk NG reached zmax Hz Hr f.
  assert (HE : exp (- alpha * zmax) < 1).
  { assert (Q : exp (- alpha * zmax) < exp 0) by (apply exp_increasing; nra). rewrite exp_0 in Q. exact Q. }
  assert (Int : forall d, is_RInt f 0 d (nth k A 0 * (1 - exp (- alpha * d)) / (1 - exp (- alpha * zmax)))).
  { intros d. evar_last.
    - apply (is_RInt_derive (fun z => - nth k A 0 * exp (- alpha * z) / (1 - exp (- alpha * zmax)))).
      + intros z _. unfold f. auto_derive; [trivial|]. field. lra.
      + intros z _. apply (ex_derive_continuous (V := R_NormedModule)). unfold f. auto_derive. trivial.
    - unfold minus, plus, opp. cbn. rewrite Rmult_0_r, exp_0. field. lra. }
  split; [|split].
  - intros xs Ex q z Eq. unfold inc_position_resolved in Ex. rewrite EA in Ex. cbn [bindR] in Ex.
    assert (Ok1 : exists y, nth_error xs q = Some y /\ inc_sample samples D A cs alphas thr (k, z) = Ok y).
    { revert Ex q Eq. generalize (inc_sample samples D A cs alphas thr). clear. intros g. revert xs.
      induction samples as [|s l IH]; intros xs Ex q Eq; [destruct q; discriminate|]. cbn [mapRR] in Ex.
      destruct (g s) as [y|] eqn:Ey; [|discriminate]. cbn [bindR] in Ex. destruct (mapRR g l) as [ys|] eqn:El; [|discriminate].
      cbn [bindR] in Ex. injection Ex as <-. destruct q as [|q]; cbn [nth_error] in *; [injection Eq as ->; now exists y|now apply IH]. }
    destruct Ok1 as (y & Ny & Ey). rewrite (nth_error_nth _ _ _ Ny). unfold inc_sample in Ey. cbn [fst snd] in Ey.
    assert (ER : reaching A (place (map fst samples) k) = reached).
    { unfold reaching. rewrite place_no_gap by assumption. replace (S (k - 1)) with k by lia. rewrite fold_total. unfold reached. lra. }
    rewrite Ec, Ea, ER in Ey. cbn [String.eqb Ascii.eqb Bool.eqb bindR] in Ey. apply IncProps.Ok_inj in Ey. rewrite Ey.
    split; intros Ht; destruct (Rlt_dec reached thr) as [Q|Q]; try lra. fold zmax. unfold beer_lambert.
    replace (- (alpha * 10 ^ 9) * (zmax * / 10 ^ 9)) with (- alpha * zmax) by (field).
    replace (- (alpha * 10 ^ 9) * (z * / 10 ^ 9)) with (- alpha * z) by (field).
    destruct (Req_EM_T _ 0) as [Z|Z].
    + exfalso. apply Rmult_integral in Z. destruct Z; lra.
    + unfold f. field. split; [lra|exact Hr].
  - specialize (Int zmax). replace (nth k A 0) with (nth k A 0 * (1 - exp (- alpha * zmax)) / (1 - exp (- alpha * zmax))) by (field; lra).
    exact Int.
  - intros d Hd HA. eexists. split; [apply Int|].
    assert (Q : exp (- alpha * d) < exp (- alpha * zmax)) by (apply exp_increasing; nra).
    apply Rmult_lt_reg_r with (1 - exp (- alpha * zmax)); [lra|]. unfold Rdiv. rewrite (Rmult_assoc _ (/ _)), Rinv_l by lra. nra.
Qed.

(** * The threshold *)
Lemma not_opaque_normal n n' : passive 0 n -> passive 0 n' ->
  / 10 ^ 30 <= Cmod (2 * n / (n + n'))%C ^ 2 * (Re n' / Re n) ->
  / 10 ^ 30 <= Cmod (2 * n' / (n' + n))%C ^ 2 * (Re n / Re n') -> not_opaque "s" 1000 0 (n, [], n').
Proof.
  intros Pn Pn' K1 K2 d [E|E].
  - assert (C0 : coupled "s" 1000 0 (n, [], n') (Cpl (cd_R d) (cd_T d) (cd_R (bdat "s" 1000 0 (n, [], n'))) (cd_T (bdat "s" 1000 0 (n, [], n'))))).
    { split; [now exists d|]. exists (bdat "s" 1000 0 (n, [], n')). split; [|split; reflexivity].
      apply bdat_call; [now left|now apply (passive_nonzero 0)|now apply (passive_nonzero 0)]. }
    destruct (normal_R _ _ _ Pn Pn' C0) as (_ & Q & _). cbn [c_T] in Q. rewrite Q. exact K1.
  - assert (C0 : coupled "s" 1000 0 (n, [], n') (Cpl (cd_R (dat "s" 1000 0 (n, [], n'))) (cd_T (dat "s" 1000 0 (n, [], n'))) (cd_R d) (cd_T d))).
    { split; [|now exists d]. exists (dat "s" 1000 0 (n, [], n')). split; [|split; reflexivity].
      apply dat_call; [now left|now apply (passive_nonzero 0)]. }
    destruct (normal_R _ _ _ Pn Pn' C0) as (_ & _ & _ & Q). cbn [c_T'] in Q. rewrite Q. exact K2.
Qed.
(** A 100 nm layer of index 1 + 0.5i in vacuum, treated as incoherent, at 1000 nm. *)
Definition half_slab : C := (1, 1 / 2).
Lemma slab_run : exists D A x T, inc_tmm "s" [RtoC 1; half_slab; RtoC 1] [None; Some 100; None] ["i"; "i"; "i"]%string 0 1000 = Ok D /\
  inc_absorp_in_each_layer D = Ok A /\ 1 / 5 <= x <= 5 / 8 /\ T = (320 / 289) * x / (1 - x ^ 2 / 289) /\
  A = [1 / 17 + x * T / 17; 16 / 17 - T * (1 + x / 17); T].
Proof.
  assert (P1 : passive 0 1) by (unfold passive; cbn; lra).
  assert (P2 : passive 0 half_slab) by (unfold passive, half_slab; cbn; lra).
  assert (M1 : Cmod (2 * 1 / (1 + half_slab))%C ^ 2 = 16 / 17) by (rewrite Cmod2; unfold half_slab; cbn; field).
  assert (M2 : Cmod (2 * half_slab / (half_slab + 1))%C ^ 2 = 20 / 17) by (rewrite Cmod2; unfold half_slab; cbn; field).
  assert (M3 : Cmod ((1 - half_slab) / (1 + half_slab))%C ^ 2 = 1 / 17) by (rewrite Cmod2; unfold half_slab; cbn; field).
  assert (M4 : Cmod ((half_slab - 1) / (half_slab + 1))%C ^ 2 = 1 / 17) by (rewrite Cmod2; unfold half_slab; cbn; field).
  assert (Tiny : / 10 ^ 30 <= 1 / 2).
  { unfold Rdiv. rewrite Rmult_1_l. apply Rinv_le_contravar; [lra|]. apply Rle_trans with (10 ^ 1); [lra|]. apply Rle_pow; [lra|lia]. }
  set (P := exp (- 4 * PI * 100 * Im (half_slab * cos_in 0 half_slab)%C / 1000)).
  assert (HP : 1 / 5 <= P <= 5 / 8).
  { unfold P. rewrite cos_in_normal by exact P2. rewrite Cmult_1_r. unfold half_slab. cbn [Im snd].
    assert (HPI := PI_3_4). set (e := - 4 * PI * 100 * (1 / 2) / 1000). assert (He : - (4 / 5) <= e < - (3 / 5)) by (unfold e; lra).
    clearbody e. split.
    - apply Rle_trans with (1 + e); [lra|]. left. apply exp_ineq1. lra.
    - assert (Q : 1 + - e < exp (- e)) by (apply exp_ineq1; lra). rewrite exp_Ropp in Q.
      assert (Q' := exp_pos e). assert (Q2 : exp e * / exp e = 1) by (apply Rinv_r; lra). nra. }
  assert (H0 : ok_inc 0 1) by (split; [exact P1|now apply steep_normal]).
  assert (H1 : ok_inc 0 half_slab) by (split; [exact P2|now apply steep_normal]).
  set (l := [([], (half_slab, Some 100)); ([], (RtoC 1, None))] : list seg).
  assert (St : structure l).
  { exists [([], (half_slab, Some 100))], [], (RtoC 1). split; [reflexivity|]. constructor; [discriminate|constructor]. }
  assert (Hl : Forall (fun s : seg => ok_inc 0 (fst (snd s))) l) by (repeat (constructor; [assumption|]); constructor).
  assert (Hpol : valid_pol "s"%string) by now left.
  assert (Hs : (RtoC 1 * RtoC 0 = RtoC 0)%C) by ring.
  destruct (inc_tmm_run "s" 1000 0 Hpol (Rle_refl 0) 1 0 l St Hs H0 Hl) as (g & (Gi & _) & E).
  assert (J1 : jok "s" 1000 0 (RtoC 1, [], half_slab)) by (split; [apply H0|split; [apply H1|constructor]]).
  assert (J2 : jok "s" 1000 0 (half_slab, [], RtoC 1)) by (split; [apply H1|split; [apply H0|constructor]]).
  assert (O1 : not_opaque "s" 1000 0 (RtoC 1, [], half_slab)).
  { apply not_opaque_normal; [exact P1|exact P2|rewrite M1; unfold half_slab; cbn; lra|rewrite M2; unfold half_slab; cbn; lra]. }
  assert (O2 : not_opaque "s" 1000 0 (half_slab, [], RtoC 1)).
  { apply not_opaque_normal; [exact P2|exact P1|rewrite M2; unfold half_slab; cbn; lra|rewrite M1; unfold half_slab; cbn; lra]. }
  assert (EC : run_cs "s" 1000 0 1 l = [jcpl "s" 1000 0 (RtoC 1, [], half_slab); jcpl "s" 1000 0 (half_slab, [], RtoC 1)]).
  { apply (run_cs_plain "s" 1000 0 Hpol); repeat (constructor; [assumption|]); constructor. }
  assert (EP : run_Ps 1000 0 l = [P]).
  { unfold run_Ps, l. cbn [removelast map pass_of fst snd]. fold P. f_equal. apply raise30_id. lra. }
  assert (Cp : forall j, jok "s" 1000 0 j -> coupled "s" 1000 0 j (jcpl "s" 1000 0 j)).
  { intros [[n cl] n'] (Pn & Pn' & F). assert (N := passive_nonzero 0 n Pn). assert (N' := passive_nonzero 0 n' Pn').
    split; [exists (dat "s" 1000 0 (n, cl, n')); split; [now apply dat_call|split; reflexivity]|].
    exists (bdat "s" 1000 0 (n, cl, n')); split; [now apply bdat_call|split; reflexivity]. }
  destruct (normal_R _ _ _ P1 P2 (Cp _ J1)) as (F1 & F2 & F3 & F4). destruct (normal_R _ _ _ P2 P1 (Cp _ J2)) as (B1 & B2 & B3 & B4).
  rewrite M1, M2, M3, M4 in *. cbn [Re fst RtoC half_slab] in *.
  set (c := jcpl "s" 1000 0 (RtoC 1, [], half_slab)) in *. set (c' := jcpl "s" 1000 0 (half_slab, [], RtoC 1)) in *. clearbody c c' P.
  set (T := (320 / 289) * P / (1 - P ^ 2 / 289)).
  assert (ET : run_T "s" 1000 0 1 l = T).
  { unfold run_T, run_Lt, run_Ls. rewrite EC, EP. cbn [hd tl combine map fold_left fst snd].
    unfold first_matrix, inner_matrix, rdiv, rmul, bracket. cbn [r00 r01 r10 r11]. rewrite ?F1, ?F2, ?F3, ?F4, ?B1, ?B2, ?B3, ?B4.
    unfold T. field. split; [nra|]. split; nra. }
  assert (EV : run_VW "s" 1000 0 1 l = [(T / (P * (20 / 17)), P * T / 20); (T, 0)]).
  { unfold run_VW, run_Ls. rewrite EC, EP, ET. cbn [tl combine map fst snd intensities hd].
    unfold rapply, inner_matrix, rdiv, rmul, bracket. cbn [r00 r01 r10 r11 fst snd]. rewrite ?F1, ?F2, ?F3, ?F4, ?B1, ?B2, ?B3, ?B4.
    f_equal. apply f_equal2; field; lra. }
  assert (Epe : run_pe "s" 1000 0 1 l = [1; 16 / 17 - P * T / 20 * (20 / 17); T]).
  { unfold run_pe. rewrite EC, EP, EV. cbn [length l combine seq x_sfi map entering fst snd nth Nat.sub Nat.eqb]. rewrite F2, F4, B2, B4.
    f_equal. f_equal; [field|]. f_equal. field. lra. }
  assert (HT : 0 < T).
  { unfold T. apply Rdiv_lt_0_compat; nra. }
  assert (HT' : T <= 7 / 10).
  { unfold T. apply Rmult_le_reg_r with (1 - P ^ 2 / 289); [nra|]. unfold Rdiv. rewrite (Rmult_assoc _ (/ _)), Rinv_l by nra. nra. }
  eexists. exists [1 / 17 + P * T / 17; 16 / 17 - T * (1 + P / 17); T], P, T. split; [exact E|].
  split; [|split; [exact HP|split; reflexivity]].
  unfold inc_absorp_in_each_layer. cbn [id_pe id_group id_T]. rewrite Gi, Epe. cbn [tl l x_sfi fst absorp_loop bindR]. rewrite ET.
  cbn [app map]. unfold clip_T, clamp0.
  repeat match goal with |- context [Rlt_dec ?a ?b] => destruct (Rlt_dec a b); [exfalso; nra|] end.
  f_equal. f_equal; [field|]. f_equal; field.
Qed.
(** The positions [np.arange(0, 100, 2)] of that layer. *)
Definition slab_samples : list (nat * R) := map (fun j => (1%nat, 2 * INR j)) (seq 0 50).
Lemma slab_layers : no_gap (map fst slab_samples) 1.
Proof.
  intros j Hj. assert (j = 0%nat) by lia. subst j. split; [|lia]. intros H. exfalso.
  unfold slab_samples in H. rewrite map_map in H. apply in_map_iff in H. destruct H as (? & Q & _). discriminate Q.
Qed.
Lemma deepest_ge samples k z : In (k, z) samples -> z <= deepest samples k.
Proof.
  intros H. unfold deepest.
  assert (Hin : In z (map snd (filter (fun s => Nat.eqb (fst s) k) samples))).
  { apply in_map_iff. exists (k, z). split; [reflexivity|]. apply filter_In. split; [exact H|apply Nat.eqb_refl]. }
  destruct (map snd (filter _ samples)) as [|x r]; [destruct Hin|]. destruct (fold_max_ge r x) as [H1 H2].
  destruct Hin as [<-|Hin]; [exact H1|]. exact (proj1 (Forall_forall _ _) H2 z Hin).
Qed.
Lemma slab_deepest : 0 < deepest slab_samples 1.
Proof.
  apply Rlt_le_trans with (2 * INR 1); [cbn; lra|]. apply deepest_ge. unfold slab_samples. apply in_map_iff. exists 1%nat.
  split; [reflexivity|]. apply in_seq. lia.
Qed.
Lemma slab_facts : exists D A, inc_tmm "s" [RtoC 1; half_slab; RtoC 1] [None; Some 100; None] ["i"; "i"; "i"]%string 0 1000 = Ok D /\
  inc_absorp_in_each_layer D = Ok A /\ 0 < nth 1 A 0 < 3 / 4 /\ 9 / 10 < 1 - total (firstn 1 A) /\ length A = 3%nat /\ total A = 1.
Proof.
  destruct slab_run as (D & A & x & T & E1 & E2 & Hx & ET & EA). exists D, A. split; [exact E1|]. split; [exact E2|].
  assert (Hq : 0 < 1 - x ^ 2 / 289) by nra.
  assert (T1 : 22 / 100 <= T).
  { rewrite ET. apply Rmult_le_reg_r with (1 - x ^ 2 / 289); [exact Hq|]. unfold Rdiv. rewrite (Rmult_assoc _ (/ (1 - _))), Rinv_l by lra. nra. }
  assert (T2 : T <= 7 / 10).
  { rewrite ET. apply Rmult_le_reg_r with (1 - x ^ 2 / 289); [exact Hq|]. unfold Rdiv. rewrite (Rmult_assoc _ (/ (1 - _))), Rinv_l by lra. nra. }
  rewrite EA. cbn [nth firstn length total fold_right]. split; [split; nra|]. split; [nra|]. split; [reflexivity|]. lra.
Qed.
Lemma slab_alpha : nth_error (alphas_of 1000 [RtoC 1; half_slab; RtoC 1]) 1 = Some (4 * PI * (1 / 2) / 1000) /\ 0 < 4 * PI * (1 / 2) / 1000.
Proof. split; [reflexivity|]. assert (Q := PI_RGT_0). lra. Qed.
Lemma incoherent_ok samples D A k alphas thr cs alpha : inc_absorp_in_each_layer D = Ok A -> nth_error cs k = Some "i"%string ->
  nth_error alphas k = Some alpha -> Forall (fun s => fst s = k) samples -> exists xs, inc_position_resolved samples D cs alphas thr = Ok xs.
Proof.
  intros EA Ec Ea F. unfold inc_position_resolved. rewrite EA. cbn [bindR].
  destruct (mapRR_all (inc_sample samples D A cs alphas thr) samples) as (xs & Ex & _); [|now exists xs].
  intros [k' z] Hin. apply (proj1 (Forall_forall _ _) F) in Hin. cbn [fst] in Hin. subst k'. unfold inc_sample. cbn [fst snd].
  rewrite Ec, Ea. cbn [String.eqb Ascii.eqb Bool.eqb bindR]. eexists. reflexivity.
Qed.
(** [zero_threshold] is documented to blank a layer that absorbs less than that fraction of the
    light. This layer absorbs less than 3/4, and its profile is not blanked by a threshold of 3/4. *)
Theorem C150_threshold_refuted : exists D A xs,
  inc_tmm "s" [RtoC 1; half_slab; RtoC 1] [None; Some 100; None] ["i"; "i"; "i"]%string 0 1000 = Ok D /\
  inc_absorp_in_each_layer D = Ok A /\ nth 1 A 0 < 3 / 4 /\
  inc_position_resolved slab_samples D ["i"; "i"; "i"]%string (alphas_of 1000 [RtoC 1; half_slab; RtoC 1]) (3 / 4) = Ok xs /\
  length xs = 50%nat /\ Forall (fun x => 0 < x) xs.
Proof.
  destruct slab_facts as (D & A & E1 & E2 & HA & HR & _ & _). destruct slab_alpha as [Ea Ha].
  destruct (incoherent_ok slab_samples D A 1 (alphas_of 1000 [RtoC 1; half_slab; RtoC 1]) (3 / 4) ["i"; "i"; "i"]%string _ E2 eq_refl Ea) as (xs & Ex).
  { unfold slab_samples. rewrite Forall_map. apply Forall_forall. reflexivity. }
  exists D, A, xs. split; [exact E1|]. split; [exact E2|]. split; [apply HA|]. split; [exact Ex|].
  destruct (C150_incoherent_partial slab_samples D ["i"; "i"; "i"]%string _ (3 / 4) A 1 _ E2 eq_refl Ea Ha (le_n 1) slab_layers slab_deepest) as (H & _).
  { lra. }
  assert (Lx : length xs = 50%nat).
  { clear - Ex E2. unfold inc_position_resolved in Ex. rewrite E2 in Ex. cbn [bindR] in Ex.
    assert (G : forall (f : nat * R -> res R) l ys, mapRR f l = Ok ys -> length ys = length l).
    { intros f. induction l as [|s l IH]; intros ys E; cbn [mapRR] in E; [now injection E as <-|].
      destruct (f s); [|discriminate]. cbn [bindR] in E. destruct (mapRR f l) as [zs|]; [|discriminate]. cbn [bindR] in E.
      injection E as <-. cbn [length]. now rewrite (IH zs eq_refl). }
    apply G in Ex. rewrite Ex. unfold slab_samples. now rewrite map_length, seq_length. }
  split; [exact Lx|]. apply Forall_nth. intros q d Hq. rewrite (nth_indep _ d 0) by exact Hq.
  assert (Eq : nth_error slab_samples q = Some (1%nat, 2 * INR q)).
  { rewrite Lx in Hq. unfold slab_samples. rewrite nth_error_map, (nth_error_nth' _ 0%nat) by (rewrite seq_length; exact Hq).
    rewrite seq_nth by exact Hq. reflexivity. }
  destruct (H xs Ex q _ Eq) as [_ K]. rewrite K by lra.
  assert (X : exp (- (4 * PI * (1 / 2) / 1000) * deepest slab_samples 1) < 1).
  { assert (Q : exp (- (4 * PI * (1 / 2) / 1000) * deepest slab_samples 1) < exp 0) by (apply exp_increasing; assert (Y := slab_deepest); nra).
    rewrite exp_0 in Q. exact Q. }
  apply Rdiv_lt_0_compat; [|lra]. apply Rmult_lt_0_compat; [nra|apply exp_pos].
Qed.
(** What is reported at one position of an incoherent layer depends on the other positions asked for. *)
Theorem C150_positions_refuted : exists D xs ys,
  inc_tmm "s" [RtoC 1; half_slab; RtoC 1] [None; Some 100; None] ["i"; "i"; "i"]%string 0 1000 = Ok D /\
  let profile samples := inc_position_resolved samples D ["i"; "i"; "i"]%string (alphas_of 1000 [RtoC 1; half_slab; RtoC 1]) (/ 10 ^ 6) in
  profile [(1%nat, 10)] = Ok xs /\ profile [(1%nat, 10); (1%nat, 20)] = Ok ys /\ nth 0 ys 0 < nth 0 xs 0.
Proof.
  destruct slab_facts as (D & A & E1 & E2 & HA & HR & _ & _). destruct slab_alpha as [Ea Ha].
  destruct (incoherent_ok [(1%nat, 10)] D A 1 (alphas_of 1000 [RtoC 1; half_slab; RtoC 1]) (/ 10 ^ 6) ["i"; "i"; "i"]%string _ E2 eq_refl Ea) as (xs & Ex).
  { repeat constructor. }
  destruct (incoherent_ok [(1%nat, 10); (1%nat, 20)] D A 1 (alphas_of 1000 [RtoC 1; half_slab; RtoC 1]) (/ 10 ^ 6) ["i"; "i"; "i"]%string _ E2 eq_refl Ea) as (ys & Ey).
  { repeat constructor. }
  exists D, xs, ys. split; [exact E1|]. cbv zeta. split; [exact Ex|]. split; [exact Ey|].
  assert (Ht : / 10 ^ 6 <= 1 - total (firstn 1 A)).
  { apply Rle_trans with (9 / 10); [|lra]. apply Rle_trans with (/ 10 ^ 1); [|lra]. apply Rinv_le_contravar; [lra|]. apply Rle_pow; [lra|lia]. }
  assert (G1 : deepest [(1%nat, 10)] 1 = 10) by reflexivity.
  assert (G2 : deepest [(1%nat, 10); (1%nat, 20)] 1 = 20).
  { unfold deepest. cbn [map filter fst snd Nat.eqb fold_left]. apply Rmax_right. lra. }
  assert (N1 : no_gap (map fst [(1%nat, 10)]) 1) by (intros j Hj; cbn; lia).
  assert (N2 : no_gap (map fst [(1%nat, 10); (1%nat, 20)]) 1) by (intros j Hj; cbn; lia).
  destruct (C150_incoherent_partial [(1%nat, 10)] D ["i"; "i"; "i"]%string _ (/ 10 ^ 6) A 1 _ E2 eq_refl Ea Ha (le_n 1) N1) as (H1 & _).
  { rewrite G1. lra. } { lra. }
  destruct (C150_incoherent_partial [(1%nat, 10); (1%nat, 20)] D ["i"; "i"; "i"]%string _ (/ 10 ^ 6) A 1 _ E2 eq_refl Ea Ha (le_n 1) N2) as (H2 & _).
  { rewrite G2. lra. } { lra. }
  destruct (H1 xs Ex 0%nat 10 eq_refl) as [_ K1]. destruct (H2 ys Ey 0%nat 10 eq_refl) as [_ K2].
  rewrite K1, K2, G1, G2 by exact Ht. set (a := 4 * PI * (1 / 2) / 1000) in *. clearbody a.
  assert (X1 : exp (- a * 10) < 1).
  { assert (Q : exp (- a * 10) < exp 0) by (apply exp_increasing; lra). rewrite exp_0 in Q. exact Q. }
  assert (X2 : exp (- a * 20) < exp (- a * 10)) by (apply exp_increasing; lra).
  unfold Rdiv. apply Rmult_lt_compat_l.
  - apply Rmult_lt_0_compat; [nra|apply exp_pos].
  - apply Rinv_lt_contravar; [apply Rmult_lt_0_compat; lra|lra].
Qed.

(** * Examples *)
(** The structure of [C84_example]: 100 nm of index 2 + 0.1i on a thick glass on an absorbing
    substrate; one sample in the film and one in the glass. *)
Definition two_samples : list (nat * R) := [(1%nat, 30); (2%nat, 50)].
Example C150_coherent_example :
  let l : list seg := [([((2, 0.1) : C, 100)], ((1.5, 0) : C, Some 1000000)); ([], ((3, 0.1) : C, None))] in
  let beta := 1 * sin 0 in
  l = [] ++ ([((2, 0.1) : C, 100)], ((1.5, 0) : C, Some 1000000)) :: [([], ((3, 0.1) : C, None))] /\
  Im (kz_of 1000 (2, 0.1) (cos_in beta (2, 0.1)) * 100)%C <= 100 /\ wave_ok 1000 beta (2, 0.1) /\
  Forall (fun s => (fst s < length (all_n (RtoC 1) l))%nat) two_samples /\
  length [0; 1 / 1000; 0; 1 / 1000] = length (all_n (RtoC 1) l) /\ no_gap (map fst two_samples) 1.
Proof.
  intros l beta. assert (B0 : beta = 0) by (unfold beta; rewrite sin_0; ring). rewrite B0. clear B0.
  assert (P1 : passive 0 (2, 0.1)) by (unfold passive; cbn; lra).
  assert (K : kz_of 1000 (2, 0.1) (cos_in 0 (2, 0.1)) = (2 * PI / 1000 * 2, 2 * PI / 1000 * 0.1)%R).
  { unfold kz_of. rewrite cos_in_normal by exact P1. rewrite Cmult_1_r. apply injective_projections; cbn; lra. }
  assert (Q := PI_3_4). split; [reflexivity|]. split; [rewrite K; cbn; lra|]. split; [|split; [|split; [reflexivity|]]].
  - unfold wave_ok. rewrite K. cbn [Re Im fst snd]. assert (Tiny : / 10 ^ 30 <= / 10 ^ 5) by (apply Rinv_le_contravar; [lra|apply Rle_pow; [lra|lia]]). lra.
  - repeat constructor.
  - intros j Hj. cbn. lia.
Qed.
Example C150_incoherent_example : exists D A,
  inc_absorp_in_each_layer D = Ok A /\ nth_error (alphas_of 1000 [RtoC 1; half_slab; RtoC 1]) 1 = Some (4 * PI * (1 / 2) / 1000) /\
  0 < 4 * PI * (1 / 2) / 1000 /\ no_gap (map fst slab_samples) 1 /\ 0 < deepest slab_samples 1 /\ 1 - total (firstn 1 A) <> 0 /\
  0 < nth 1 A 0.
Proof.
  destruct slab_facts as (D & A & E1 & E2 & HA & HR & _ & _). destruct slab_alpha as [Ea Ha]. exists D, A.
  split; [exact E2|]. split; [exact Ea|]. split; [exact Ha|]. split; [exact slab_layers|]. split; [exact slab_deepest|]. split; lra.
Qed.

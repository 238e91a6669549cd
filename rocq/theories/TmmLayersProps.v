(** Depths, analytic absorption functions and the grouping of layers: C44, C45, C46, C82. *)
From Coq Require Import Reals Lra Psatz String List Arith Lia Bool.
From Coquelicot Require Import Complex Coquelicot.
From Verif Require Import Common InterpModel InterpProps NpModel BeerLambertModel BeerLambertProps
  TmmModel TmmProps TmmLayersModel.
From Coq Require Import List.
Import ListNotations.
Open Scope R_scope.
Open Scope list_scope.

(** * C44 *)
Definition inner_d (l : list R) : list (option R) := None :: map Some l ++ [None].
Lemma finite_all_Some l : finite_all (map Some l) = Ok l.
Proof. induction l as [|x l IH]; [reflexivity|]. cbn. now rewrite IH. Qed.
Lemma inner_inner_d l : inner (inner_d l) = map Some l.
Proof. unfold inner, inner_d. cbn [tl]. apply removelast_last. Qed.
Lemma psums_nondecreasing l a : Forall (fun x => 0 <= x) l -> nondecreasing (psums a l).
Proof.
  intros H i j Hij. rewrite psums_length in Hij. destruct Hij as [Hij Hj].
  induction j as [|j IH]; [assert (i = 0)%nat by lia; subst; lra|].
  destruct (Nat.eq_dec i (S j)) as [->|N]; [lra|].
  rewrite psums_step by lia. assert (0 <= at_ l j) by (rewrite Forall_forall in H; apply H, nth_In; lia).
  assert (at_ (psums a l) i <= at_ (psums a l) j) by (apply IH; lia). lra.
Qed.
(** For a depth inside or behind the structure: the layer (index into the full list of
    thicknesses) starts at or before the depth, the returned distance is what remains, it is
    inside the layer, and no other layer of positive extent contains the depth. *)
Theorem C44_inverse_partial : forall (ds : list R) (dist : R),
  Forall (fun d => 0 <= d) ds -> 0 <= dist ->
  exists layer z starts,
    find_in_structure_with_inf (inner_d ds) dist = Ok (layer, z) /\
    layer_starts (inner_d ds) = Ok starts /\
    length starts = length (inner_d ds) /\
    (1 <= layer <= length ds + 1)%nat /\
    (exists start, nth_error starts layer = Some (Some start) /\ start + z = dist) /\
    0 <= z /\ ((layer <= length ds)%nat -> z < nth (layer - 1) ds 0) /\
    (forall k s, (1 <= k <= length ds)%nat -> nth_error starts k = Some (Some s) ->
       s <= dist < s + nth (k - 1) ds 0 -> k = layer).
Proof.
  intros ds dist Hd Hz. unfold find_in_structure_with_inf, find_in_structure, layer_starts.
  rewrite inner_inner_d, finite_all_Some. cbn [bindR].
  replace (length (inner_d ds) <? 2)%nat with false.
  2:{ symmetry. apply Nat.ltb_ge. unfold inner_d. cbn [length]. rewrite app_length. cbn. lia. }
  assert (Hn := psums_nondecreasing ds 0 Hd).
  destruct (count_le_spec (psums 0 ds) dist Hn) as (C1 & C2 & C3).
  rewrite psums_length in *. set (kk := count_le (psums 0 ds) dist) in *. clearbody kk.
  assert (H0 : at_ (psums 0 ds) 0 = 0) by (destruct ds; reflexivity).
  destruct kk as [|k].
  { exfalso. specialize (C3 0%nat ltac:(lia)). lra. }
  do 3 eexists. split; [reflexivity|]. split; [reflexivity|]. split.
  { cbn [length]. rewrite map_length, psums_length. unfold inner_d. cbn [length].
    rewrite app_length, map_length. cbn. lia. }
  split; [lia|]. split.
  { exists (at_ (psums 0 ds) k). split; [|lra]. cbn [nth_error].
    rewrite nth_error_map, (nth_error_nth' _ 0) by (rewrite psums_length; lia). reflexivity. }
  split; [specialize (C2 k ltac:(lia)); lra|]. split.
  { intros Hk. specialize (C3 (S k) ltac:(lia)). rewrite psums_step in C3 by lia.
    cbn [Nat.sub]. rewrite Nat.sub_0_r. unfold at_ in *. lra. }
  intros j s Hj Hs Hb. destruct j as [|j]; [lia|]. cbn [nth_error] in Hs.
  rewrite nth_error_map, (nth_error_nth' _ 0) in Hs by (rewrite psums_length; lia).
  cbn [option_map] in Hs. injection Hs as Hs.
  change (at_ (psums 0 ds) j = s) in Hs. cbn [Nat.sub] in Hb. rewrite Nat.sub_0_r in Hb.
  assert (Hs' := psums_step ds 0 j ltac:(lia)). change (nth j ds 0) with (at_ ds j) in Hb.
  destruct (lt_eq_lt_dec j k) as [[L|E]|L].
  - specialize (C2 (S j) ltac:(lia)). lra.
  - lia.
  - assert (Q := Hn (S k) j). rewrite psums_length in Q. specialize (Q ltac:(lia)).
    specialize (C3 (S k) ltac:(lia)). lra.
Qed.
(** In front of the structure the index -1 wraps around: layer 0 is returned with the distance
    counted from the back, and the docstring's numbering from 0 is not what is returned. *)
Theorem C44_negative_refuted : exists ds dist layer z, Forall (fun d => 0 < d) ds /\ dist < 0 /\
  find_in_structure_with_inf (inner_d ds) dist = Ok (layer, z) /\ layer = 0%nat /\ z <> dist.
Proof.
  exists [1], (-1), 0%nat, (-2). split; [apply Forall_cons; [lra|constructor]|].
  unfold find_in_structure_with_inf, find_in_structure. rewrite inner_inner_d, finite_all_Some.
  cbn [psums count_le]. destruct (Rle_dec 0 (-1)) as [F|_]; [lra|]. cbn [last].
  split; [lra|]. split; [f_equal; f_equal; lra|]. split; [reflexivity|lra].
Qed.
Theorem C44_docstring_refuted : exists ds dist layer z, Forall (fun d => 0 < d) ds /\
  0 <= dist < nth 0 ds 0 /\ find_in_structure (map Some ds) dist = Ok (layer, z) /\ layer <> 0%nat.
Proof.
  exists [1], 0, 1%nat, 0. split; [apply Forall_cons; [lra|constructor]|]. split; [cbn; lra|].
  unfold find_in_structure. rewrite finite_all_Some. cbn [psums count_le].
  destruct (Rle_dec 0 0) as [_|F]; [|lra]. destruct (Rle_dec (0 + 1) 0) as [F|_]; [lra|].
  split; [f_equal; f_equal; cbn; lra|discriminate].
Qed.
Example C44_example : Forall (fun d => 0 <= d) [100; 50; 200] /\ 0 <= 120.
Proof. split; [repeat apply Forall_cons; try lra; constructor|lra]. Qed.

(** * C46 *)
Lemma cexp_plus z w : (cexp (z + w) = cexp z * cexp w)%C.
Proof.
  unfold cexp. destruct z, w. apply C_eq; cbn [Re Im fst snd Cmult Cplus];
    rewrite exp_plus, ?cos_plus, ?sin_plus; ring.
Qed.
Lemma cexp_conj z : Cconj (cexp z) = cexp (Cconj z).
Proof.
  unfold cexp. destruct z. apply C_eq; cbn [Re Im fst snd Cconj]; rewrite ?cos_neg, ?sin_neg; ring.
Qed.
Lemma Cconj_mult z w : (Cconj (z * w) = Cconj z * Cconj w)%C.
Proof. destruct z, w. apply C_eq; cbn; ring. Qed.
Lemma Cconj_conj z : Cconj (Cconj z) = z.
Proof. destruct z. apply C_eq; cbn; ring. Qed.
Lemma conj_I (x : R) : (Cconj (Ci * x) = - (Ci * x))%C.
Proof. apply C_eq; cbn; ring. Qed.
(** Flipping mirrors the depth; twice is the identity; scaling multiplies; the value is real. *)
Theorem C46_operations_partial : forall f b z k,
  run_scalar (flip f) z = run_scalar f (f_d f - z) /\
  flip (flip f) = f /\
  run_scalar (scale k f) z = (k * run_scalar f z)%C /\
  Im (run_scalar f z) = 0 /\
  (f_a1 b = f_a1 f -> f_a3 b = f_a3 f ->
   run_scalar (add1 f b) z = (run_scalar f z + run_scalar b z)%C).
Proof.
  intros f b z k.
  assert (EX : forall x, exp (- f_a1 f * x) * exp (f_a1 f * x) = 1).
  { intros x. rewrite <- exp_plus. replace (- f_a1 f * x + f_a1 f * x) with 0 by ring. apply exp_0. }
  assert (CX : forall x : R, (cexp (- (Ci * x)) * cexp (Ci * x) = 1)%C).
  { intros x. rewrite <- cexp_plus. replace (- (Ci * x) + Ci * x)%C with (RtoC 0) by ring. apply cexp_0. }
  split; [|split; [|split; [|split]]].
  - unfold run_scalar, flip. cbn [f_A1 f_A2 f_A3 f_a1 f_a3 f_d].
    replace (f_A2 f * exp (- f_a1 f * f_d f) * exp (f_a1 f * z))
      with (f_A2 f * exp (- f_a1 f * (f_d f - z))).
    2:{ rewrite Rmult_assoc, <- exp_plus. f_equal. f_equal. ring. }
    replace (f_A1 f * exp (f_a1 f * f_d f) * exp (- f_a1 f * z))
      with (f_A1 f * exp (f_a1 f * (f_d f - z))).
    2:{ rewrite Rmult_assoc, <- exp_plus. f_equal. f_equal. ring. }
    rewrite Cconj_conj, Cconj_mult, cexp_conj, conj_I.
    replace (cexp (Ci * (f_a3 f * (f_d f - z))%R)%C)
      with (cexp (Ci * (f_a3 f * f_d f)%R) * cexp (- (Ci * (f_a3 f * z)%R)))%C.
    2:{ rewrite <- cexp_plus. f_equal. apply C_eq; cbn; ring. }
    replace (cexp (- (Ci * (f_a3 f * (f_d f - z))%R))%C)
      with (cexp (- (Ci * (f_a3 f * f_d f)%R)) * cexp (Ci * (f_a3 f * z)%R))%C.
    2:{ rewrite <- cexp_plus. f_equal. apply C_eq; cbn; ring. }
    ring.
  - unfold flip. cbn [f_A1 f_A2 f_A3 f_a1 f_a3 f_d]. destruct f as [A1 A2 A3 a1 a3 d].
    cbn [f_A1 f_A2 f_A3 f_a1 f_a3 f_d] in *. f_equal.
    + rewrite Rmult_assoc, (Rmult_comm (exp (a1 * d))), EX. ring.
    + rewrite Rmult_assoc, EX. ring.
    + rewrite Cconj_mult, Cconj_conj, cexp_conj, conj_I.
      transitivity (A3 * (cexp (- (Ci * (a3 * d)%R)) * cexp (Ci * (a3 * d)%R)))%C; [ring|].
      rewrite CX. ring.
  - unfold run_scalar, scale. cbn [f_A1 f_A2 f_A3 f_a1 f_a3 f_d]. rewrite Cconj_mult.
    replace (Cconj k) with (RtoC k) by (apply C_eq; cbn; ring). rewrite !RtoC_mult. ring.
  - unfold run_scalar. rewrite <- conj_I, <- cexp_conj.
    set (e := cexp _). clearbody e. destruct (f_A3 f), e. cbn. ring.
  - intros E1 E3. unfold run_scalar, add1. cbn [f_A1 f_A2 f_A3 f_a1 f_a3 f_d]. rewrite E1, E3.
    replace (Cconj (f_A3 f + f_A3 b)%C) with (Cconj (f_A3 f) + Cconj (f_A3 b))%C
      by (destruct (f_A3 f), (f_A3 b); apply C_eq; cbn; ring).
    rewrite !RtoC_mult, !RtoC_plus. ring.
Qed.
(** [add] over an array of wavelengths: if the exponents agree at every wavelength the sum is
    returned; if they differ at every wavelength it is refused. *)
Theorem C46_add_partial : forall fs bs, fs <> [] -> length fs = length bs ->
  (Forall (fun fb => f_a1 (snd fb) = f_a1 (fst fb) /\ f_a3 (snd fb) = f_a3 (fst fb)) (combine fs bs) ->
   exists s, add fs bs = Ok s /\
     forall i z, (i < length fs)%nat ->
       run_scalar (nth i s (Afn 0 0 0 0 0 0)) z =
       (run_scalar (nth i fs (Afn 0 0 0 0 0 0)) z + run_scalar (nth i bs (Afn 0 0 0 0 0 0)) z)%C) /\
  (Forall (fun fb => f_a1 (snd fb) <> f_a1 (fst fb)) (combine fs bs) \/
   Forall (fun fb => f_a3 (snd fb) <> f_a3 (fst fb)) (combine fs bs) -> add fs bs = Err ValueError).
Proof.
  intros fs bs Hne Hlen. split.
  - intros H. unfold add.
    assert (Q : forall g, (g = f_a1 \/ g = f_a3) -> forallb (differ g) (combine fs bs) = false).
    { intros g Hg. destruct fs as [|f fs']; [congruence|]. destruct bs as [|b bs']; [discriminate|].
      apply Forall_inv in H. cbn [combine fst snd] in H. cbn [combine forallb].
      unfold differ at 1. cbn [fst snd]. destruct (Req_EM_T (g b) (g f)) as [_|N]; [reflexivity|].
      exfalso. apply N. destruct Hg as [->| ->]; apply H. }
    rewrite !Q by auto. cbn [orb]. eexists. split; [reflexivity|].
    intros i z Hi. set (dflt := Afn 0 0 0 0 0 0).
    assert (Hc : (i < length (combine fs bs))%nat) by (rewrite combine_length; lia).
    rewrite (nth_indep _ dflt (add1 (fst (dflt, dflt)) (snd (dflt, dflt)))) by (now rewrite map_length).
    rewrite (map_nth (fun fb => add1 (fst fb) (snd fb))), combine_nth by exact Hlen.
    rewrite Forall_forall in H. specialize (H _ (nth_In _ (dflt, dflt) Hc)).
    rewrite combine_nth in H by exact Hlen. cbn [fst snd] in *. destruct H as [H1 H2].
    now apply (C46_operations_partial _ _ z 0).
  - intros H. unfold add.
    assert (Q : forall g, Forall (fun fb => g (snd fb) <> g (fst fb)) (combine fs bs) ->
                forallb (differ g) (combine fs bs) = true).
    { intros g Hg. apply forallb_forall. intros x Hx. rewrite Forall_forall in Hg. unfold differ.
      destruct (Req_EM_T (g (snd x)) (g (fst x))) as [E|_]; [|reflexivity]. exfalso. now apply (Hg x Hx). }
    destruct H as [H|H]; [rewrite (Q f_a1 H)|rewrite (Q f_a3 H), orb_true_r]; reflexivity.
Qed.
(** Functions whose exponents differ at some wavelengths are added all the same, and the sum is
    then wrong at those wavelengths. *)
Theorem C46_add_refuted : exists fs bs s i z, length fs = length bs /\ add fs bs = Ok s /\
  (i < length fs)%nat /\
  f_a1 (nth i bs (Afn 0 0 0 0 0 0)) <> f_a1 (nth i fs (Afn 0 0 0 0 0 0)) /\
  run_scalar (nth i s (Afn 0 0 0 0 0 0)) z <>
  (run_scalar (nth i fs (Afn 0 0 0 0 0 0)) z + run_scalar (nth i bs (Afn 0 0 0 0 0 0)) z)%C.
Proof.
  exists [Afn 0 1 0 1 0 1; Afn 0 1 0 1 0 1], [Afn 0 1 0 1 0 1; Afn 0 1 0 2 0 1].
  do 2 eexists. exists 1. split; [reflexivity|].
  assert (E : (exp (- (1) * 1)) <> (exp (- (2) * 1))).
  { assert (exp (- (2) * 1) < exp (- (1) * 1)) by (apply exp_increasing; lra). lra. }
  unfold add. cbn [combine forallb]. unfold differ. cbn [fst snd f_a1 f_a3].
  destruct (Req_EM_T 1 1) as [_|F]; [|lra]. destruct (Req_EM_T 0 0) as [_|F]; [|lra]. cbn [andb orb map fst snd].
  split; [reflexivity|]. split; [exact (Nat.lt_succ_diag_r 1)|]. cbn [nth f_a1]. split; [lra|].
  intros H. apply (f_equal Re) in H. revert H. unfold run_scalar, add1. cbn [f_A1 f_A2 f_A3 f_a1 f_a3 f_d].
  set (c1 := cexp (Ci * (0 * 1)%R)%C). set (c2 := cexp (- (Ci * (0 * 1)%R))%C).
  clearbody c1 c2. destruct c1, c2. cbn [Re fst Cplus Cmult Cconj RtoC snd]. intros H. lra.
Qed.
(** Evaluating at an array of depths drops the growing exponential whenever its amplitude is
    below 1e-100: otherwise it agrees with the scalar evaluation ... *)
Theorem C46_array_partial : forall f z, / 10 ^ 100 <= f_A1 f \/ f_A1 f = 0 ->
  run_array f z = run_scalar f z.
Proof.
  intros f z H. unfold run_array, run_scalar. destruct (Rlt_dec (f_A1 f) (/ 10 ^ 100)) as [L|L]; [|reflexivity].
  destruct H as [H|H]; [lra|]. rewrite H. f_equal. f_equal. f_equal. apply C_eq; cbn; ring.
Qed.
Lemma exp_INR (n : nat) (x : R) : exp (INR n * x) = exp x ^ n.
Proof.
  induction n as [|n IH]; [rewrite Rmult_0_l; apply exp_0|].
  rewrite S_INR, Rmult_plus_distr_r, exp_plus, IH, Rmult_1_l. cbn [pow]. ring.
Qed.
(** ... but a flipped function of an opaque layer loses everything: light absorbed at the back
    surface (where the original function is 1) is reported as 0. *)
Theorem C46_opaque_flip_refuted : exists f, 0 < f_a1 f /\ 0 < f_d f /\
  run_array f 0 = 1 /\ run_array (flip f) (f_d f) = 0.
Proof.
  exists (Afn 0 1 0 1 0 400). cbn [f_a1 f_d]. split; [lra|]. split; [lra|].
  assert (P100 : 0 < / 10 ^ 100) by (apply Rinv_0_lt_compat, pow_lt; lra).
  assert (Hs : exp (- (1) * 400) < / 10 ^ 100).
  { assert (E : exp (- (1) * 400) = / (exp 1 ^ 400)).
    { replace (- (1) * 400) with (- (INR 400 * 1)) by (rewrite INR_IZR_INZ; cbn; lra).
      rewrite exp_Ropp, exp_INR. reflexivity. }
    rewrite E. apply Rinv_lt_contravar.
    - apply Rmult_lt_0_compat; apply pow_lt; [lra|apply exp_pos].
    - apply Rlt_le_trans with (2 ^ 400).
      + rewrite !pow_IZR. apply IZR_lt. reflexivity.
      + apply pow_incr. assert (Q := exp_ineq1_le 1). lra. }
  split; unfold run_array, flip; cbn [f_A1 f_A2 f_A3 f_a1 f_a3 f_d].
  - destruct (Rlt_dec 0 (/ 10 ^ 100)) as [_|F]; [|lra]. rewrite Rmult_0_r, exp_0.
    set (c1 := cexp _). set (c2 := cexp _). clearbody c1 c2. destruct c1, c2. apply C_eq; cbn; ring.
  - destruct (Rlt_dec (1 * exp (- (1) * 400)) (/ 10 ^ 100)) as [_|F]; [|lra].
    set (c1 := cexp _). set (c2 := cexp _). clearbody c1 c2.
    destruct c1, c2. apply C_eq; cbn; ring.
Qed.
Example C46_example : Forall (fun fb => f_a1 (snd fb) = f_a1 (fst fb) /\ f_a3 (snd fb) = f_a3 (fst fb))
  (combine [Afn 1 2 (1, 1) 3 4 5] [Afn 2 3 (0, 1) 3 4 5]) /\ / 10 ^ 100 <= f_A1 (Afn 1 2 (1, 1) 3 4 5).
Proof.
  split; [apply Forall_cons; [split; reflexivity|constructor]|]. cbn [f_A1].
  apply (Rle_trans _ (/ 1)); [|lra]. apply Rinv_le_contravar; [lra|]. apply pow_R1_Rle. lra.
Qed.

(** * C82: absorbed density, Poynting vector and the analytic function agree *)
Section Density.
Variables (V W K S p q x y : R).
Definition G (z : R) : R :=
  p * (V * exp (- (2 * y * z)) - W * exp (2 * y * z))
  - 2 * q * (S * cos (2 * x * z) + K * sin (2 * x * z)).
Definition H (z : R) : R :=
  2 * p * y * (V * exp (- (2 * y * z)) + W * exp (2 * y * z))
  + 4 * q * x * (K * cos (2 * x * z) - S * sin (2 * x * z)).
End Density.
Lemma field_values (v w : C) (x y z : R) :
  let f := E_f v (x, y) z in let b := E_b w (x, y) z in
  let K := Re (Cconj w * v)%C in let S := Im (Cconj w * v)%C in
  Cmod f ^ 2 = Cmod v ^ 2 * exp (- (2 * y * z)) /\
  Cmod b ^ 2 = Cmod w ^ 2 * exp (2 * y * z) /\
  Re (Cconj b * f)%C = K * cos (2 * x * z) - S * sin (2 * x * z) /\
  Im (Cconj b * f)%C = S * cos (2 * x * z) + K * sin (2 * x * z).
Proof.
  intros f b K S.
  assert (F : f = Cmult v ((exp (- (y * z)) * cos (x * z), exp (- (y * z)) * sin (x * z)) : C)).
  { unfold f, E_f, cexp. f_equal. cbn [Re Im fst snd Cmult Ci RtoC].
    replace ((0 * x - 1 * y) * z - (0 * y + 1 * x) * 0) with (- (y * z)) by ring.
    replace ((0 * x - 1 * y) * 0 + (0 * y + 1 * x) * z) with (x * z) by ring. reflexivity. }
  assert (B : b = Cmult w ((exp (y * z) * cos (x * z), - (exp (y * z) * sin (x * z))) : C)).
  { unfold b, E_b, cexp. f_equal. cbn [Re Im fst snd Cmult Copp Ci RtoC].
    replace (- ((0 * x - 1 * y) * z - (0 * y + 1 * x) * 0)) with (y * z) by ring.
    replace (- ((0 * x - 1 * y) * 0 + (0 * y + 1 * x) * z)) with (- (x * z)) by ring.
    rewrite cos_neg, sin_neg. f_equal. ring. }
  rewrite F, B, !Cmod2. unfold K, S. clear F B K S f b.
  replace (2 * x * z) with (2 * (x * z)) by ring. rewrite cos_2a, sin_2a.
  replace (exp (- (2 * y * z))) with (exp (- (y * z)) * exp (- (y * z))) by (rewrite <- exp_plus; f_equal; ring).
  replace (exp (2 * y * z)) with (exp (y * z) * exp (y * z)) by (rewrite <- exp_plus; f_equal; ring).
  assert (E : exp (- (y * z)) * exp (y * z) = 1).
  { rewrite <- exp_plus. replace (- (y * z) + y * z) with 0 by ring. apply exp_0. }
  assert (T : sin (x * z) * sin (x * z) + cos (x * z) * cos (x * z) = 1) by apply (sin2_cos2 (x * z)).
  set (e := exp (- (y * z))) in *. set (g := exp (y * z)) in *.
  set (s := sin (x * z)) in *. set (c := cos (x * z)) in *. clearbody e g s c.
  destruct v as [v1 v2], w as [w1 w2]. cbn [Re Im fst snd Cmult Cconj].
  repeat split.
  - transitivity ((v1 ^ 2 + v2 ^ 2) * (e * e) * (s * s + c * c)); [ring|rewrite T; ring].
  - transitivity ((w1 ^ 2 + w2 ^ 2) * (g * g) * (s * s + c * c)); [ring|rewrite T; ring].
  - transitivity ((e * g) * ((w1 * v1 - - w2 * v2) * (c * c - s * s) - (w1 * v2 + - w2 * v1) * (2 * s * c)));
      [ring|rewrite E; ring].
  - transitivity ((e * g) * ((w1 * v2 + - w2 * v1) * (c * c - s * s) + (w1 * v1 - - w2 * v2) * (2 * s * c)));
      [ring|rewrite E; ring].
Qed.
Definition kk (pol : string) (n c : C) : C := if String.eqb pol "s" then (n * c)%C else (Cconj n * c)%C.
Lemma poyn_G pol n c kz v w n0 c0 z : valid_pol pol ->
  poyn pol n c kz v w n0 c0 z =
  Ok (G (Cmod v ^ 2) (Cmod w ^ 2) (Re (Cconj w * v)%C) (Im (Cconj w * v)%C)
        (Re (kk pol n c)) (Im (kk pol n c)) (Re kz) (Im kz) z / A0 pol n0 c0).
Proof.
  intros Hp. destruct kz as [x y]. cbn [Re Im fst snd].
  destruct (field_values v w x y z) as (F1 & F2 & F3 & F4). cbv zeta in *.
  unfold G. rewrite <- F1, <- F2, <- F4. unfold poyn.
  set (f := E_f v (x, y) z) in *. set (b := E_b w (x, y) z) in *. clearbody f b.
  rewrite !Cmod2. unfold kk, A0.
  destruct Hp as [->| ->]; cbn [String.eqb Ascii.eqb Bool.eqb]; f_equal; f_equal;
    destruct n, c, f, b; cbn; ring.
Qed.
Lemma absor_H pol n c lam v w n0 c0 z : valid_pol pol -> 0 < lam ->
  let kz := kz_of lam n c in
  absor pol n c kz v w n0 c0 z =
  Ok (H (Cmod v ^ 2) (Cmod w ^ 2) (Re (Cconj w * v)%C) (Im (Cconj w * v)%C)
        (Re (kk pol n c)) (Im (kk pol n c)) (Re kz) (Im kz) z / A0 pol n0 c0).
Proof.
  intros Hp Hl kz.
  assert (Hk : kz = ((2 * PI / lam) * Re (n * c)%C, (2 * PI / lam) * Im (n * c)%C)).
  { assert (Q := delta_parts lam n c 1 Hl). unfold kz.
    replace (kz_of lam n c) with (kz_of lam n c * 1)%C by ring. rewrite Q. apply C_eq; cbn; field; lra. }
  assert (Hx : Re kz = 2 * PI / lam * Re (n * c)%C) by (rewrite Hk; reflexivity).
  assert (Hy : Im kz = 2 * PI / lam * Im (n * c)%C) by (rewrite Hk; reflexivity).
  clear Hk. destruct kz as [x y]. cbn [Re Im fst snd] in *.
  destruct (field_values v w x y z) as (F1 & F2 & F3 & F4). cbv zeta in *.
  unfold H. rewrite <- F1, <- F2, <- F3. unfold absor.
  set (f := E_f v (x, y) z) in *. set (b := E_b w (x, y) z) in *. clearbody f b.
  rewrite !Cmod2. unfold kk, A0.
  destruct Hp as [->| ->]; cbn [String.eqb Ascii.eqb Bool.eqb]; f_equal; f_equal.
  - set (k := (n * c)%C) in *. set (s := 2 * PI / lam) in *. clearbody k s.
    subst x y. destruct k, f, b. cbn. ring.
  - destruct n, c, f, b. cbn. ring.
Qed.
Lemma G_derive V W K S p q x y z :
  is_derive (G V W K S p q x y) z (- H V W K S p q x y z).
Proof. unfold G, H. auto_derive; [exact I|]. ring. Qed.
(** In every layer the absorbed density is minus the slope of the Poynting vector, so what a
    slab [a,b] absorbs is the difference of the power entering and leaving it. *)
Theorem C82_density : forall pol (n c : C) (lam : R) (v w n0 c0 : C),
  valid_pol pol -> 0 < lam ->
  exists P A : R -> R,
    (forall z, poyn pol n c (kz_of lam n c) v w n0 c0 z = Ok (P z)) /\
    (forall z, absor pol n c (kz_of lam n c) v w n0 c0 z = Ok (A z)) /\
    (forall z, is_derive P z (- A z)) /\
    (forall a b, is_RInt A a b (P a - P b)).
Proof.
  intros pol n c lam v w n0 c0 Hp Hl.
  set (V := Cmod v ^ 2). set (W := Cmod w ^ 2). set (K := Re (Cconj w * v)%C). set (S := Im (Cconj w * v)%C).
  set (p := Re (kk pol n c)). set (q := Im (kk pol n c)).
  set (x := Re (kz_of lam n c)). set (y := Im (kz_of lam n c)). set (a0 := A0 pol n0 c0).
  set (P := fun z => G V W K S p q x y z / a0). set (A := fun z => H V W K S p q x y z / a0).
  assert (D : forall z, is_derive P z (- A z)).
  { intros z. unfold P, A. unfold Rdiv.
    replace (- (H V W K S p q x y z * / a0)) with ((- H V W K S p q x y z) * / a0) by ring.
    apply (is_derive_ext (fun z => scal (/ a0) (G V W K S p q x y z))).
    - intros t. unfold scal; cbn. unfold mult; cbn. ring.
    - replace (- H V W K S p q x y z * / a0) with (scal (/ a0) (- H V W K S p q x y z))
        by (unfold scal; cbn; unfold mult; cbn; ring).
      apply @is_derive_scal, G_derive. }
  exists P, A. split; [|split; [|split]].
  - intros z. apply (poyn_G pol n c (kz_of lam n c) v w n0 c0 z Hp).
  - intros z. apply (absor_H pol n c lam v w n0 c0 z Hp Hl).
  - exact D.
  - intros a b.
    assert (Q : is_RInt (fun z => - - A z) a b (- (P b - P a))).
    { apply @is_RInt_opp. apply (is_RInt_derive P (fun z => - A z)).
      - intros z _. apply D.
      - intros z _. unfold A, H. apply (@ex_derive_continuous R_AbsRing R_NormedModule).
        auto_derive. exact I. }
    replace (P a - P b) with (- (P b - P a)) by ring.
    apply (is_RInt_ext (fun z => - - A z)); [intros; apply Ropp_involutive|exact Q].
Qed.
Lemma cut30_id x : x = 0 \/ / 10 ^ 30 <= x -> cut30 x = x.
Proof.
  intros [-> |Hx]; unfold cut30; destruct (Rlt_dec _ _); auto. lra.
Qed.
(** The stored analytic function is the same density, and real, as long as neither part of
    the wavevector is in the range that [fill_in] sets to zero. *)
Theorem C82_analytic : forall pol (n c : C) (lam : R) (v w n0 c0 : C) (d z : R),
  valid_pol pol -> 0 < lam ->
  let kz := kz_of lam n c in
  2 * Re kz = 0 \/ / 10 ^ 30 <= 2 * Re kz -> 2 * Im kz = 0 \/ / 10 ^ 30 <= 2 * Im kz ->
  exists A, absor pol n c kz v w n0 c0 z = Ok A /\
            run_scalar (fill_in pol n c kz v w n0 c0 d) z = RtoC A.
Proof.
  intros pol n c lam v w n0 c0 d z Hp Hl kz Hx Hy.
  eexists. split; [apply (absor_H pol n c lam v w n0 c0 z Hp Hl)|]. fold kz.
  unfold fill_in. rewrite (cut30_id _ Hx), (cut30_id _ Hy).
  assert (Hk : kz = ((2 * PI / lam) * Re (n * c)%C, (2 * PI / lam) * Im (n * c)%C)).
  { assert (Q := delta_parts lam n c 1 Hl). unfold kz.
    replace (kz_of lam n c) with (kz_of lam n c * 1)%C by ring. rewrite Q. apply C_eq; cbn; field; lra. }
  assert (Ex : Re kz = 2 * PI / lam * Re (n * c)%C) by (rewrite Hk; reflexivity).
  assert (Ey : Im kz = 2 * PI / lam * Im (n * c)%C) by (rewrite Hk; reflexivity).
  clear Hk Hx Hy. clearbody kz. destruct kz as [x y]. cbn [Re Im fst snd] in *.
  assert (E1 : cexp (Ci * (2 * x * z)%R)%C = (cos (2 * x * z), sin (2 * x * z))).
  { unfold cexp. cbn [Re Im Ci RtoC Cmult fst snd].
    replace (0 * (2 * x * z) - 1 * 0) with 0 by ring. replace (0 * 0 + 1 * (2 * x * z)) with (2 * x * z) by ring.
    rewrite exp_0. f_equal; ring. }
  assert (E2 : cexp (- (Ci * (2 * x * z)%R))%C = (cos (2 * x * z), - sin (2 * x * z))).
  { unfold cexp. cbn [Re Im Ci RtoC Cmult Copp fst snd].
    replace (- (0 * (2 * x * z) - 1 * 0)) with 0 by ring.
    replace (- (0 * 0 + 1 * (2 * x * z))) with (- (2 * x * z)) by ring.
    rewrite exp_0, cos_neg, sin_neg. f_equal; ring. }
  unfold run_scalar, H, kk, A0.
  destruct Hp as [->| ->]; cbn [String.eqb Ascii.eqb Bool.eqb f_A1 f_A2 f_A3 f_a1 f_a3];
    rewrite E1, E2; replace (- (2 * y) * z) with (- (2 * y * z)) by ring;
    set (cc := cos (2 * x * z)); set (ss := sin (2 * x * z));
    set (ep := exp (2 * y * z)); set (em := exp (- (2 * y * z)));
    set (V := Cmod v ^ 2); set (W := Cmod w ^ 2); clearbody cc ss ep em V W.
  - assert (Et : Im (n * c * ((x, y) : C))%C = 2 * Re (n * c)%C * y /\ Im (n * c * ((x, y) : C))%C = 2 * Im (n * c)%C * x).
    { destruct (n * c)%C as [p q]. cbn [Re Im fst snd Cmult] in *. subst x y. split; ring. }
    destruct Et as [Et1 Et2]. set (t := Im (n * c * ((x, y) : C))%C) in *. clearbody t.
    rewrite <- Et1. replace (4 * Im (n * c)%C * x) with (2 * t) by (rewrite Et2; ring).
    set (a := Re (n0 * c0)%C). clearbody a. clear.
    destruct v as [v1 v2], w as [w1 w2]. apply C_eq; cbn; unfold Rdiv; ring.
  - set (a := Re (n0 * Cconj c0)%C). clearbody a. clear.
    destruct n as [n1 n2], c as [c1 c2].
    destruct v as [v1 v2], w as [w1 w2]. apply C_eq; cbn; unfold Rdiv; ring.
Qed.
Example C82_example : let kz := kz_of 500 (2, 1) 1 in
  (2 * Re kz = 0 \/ / 10 ^ 30 <= 2 * Re kz) /\ (2 * Im kz = 0 \/ / 10 ^ 30 <= 2 * Im kz).
Proof.
  intros kz.
  assert (Q := delta_parts 500 (2, 1) 1 1 ltac:(lra)).
  assert (E : kz = (2 * PI / 500 * 2, 2 * PI / 500)).
  { unfold kz. replace (kz_of 500 (2, 1) 1) with (kz_of 500 (2, 1) 1 * 1)%C by ring. rewrite Q.
    apply C_eq; cbn; field. }
  rewrite E. cbn [Re Im fst snd].
  assert (B := PI2_3_2). assert (P : / 10 ^ 30 <= / 1000).
  { apply Rinv_le_contravar; [lra|]. replace 1000 with (10 ^ 3) by ring. apply Rle_pow; [lra|lia]. }
  unfold PI2 in B. split; right; lra.
Qed.

(** * C45 *)
Section Grouping.
Context {N D : Type}.
Notation layer := (N * option D * string)%type.
Definition nn (x : layer) : N := fst (fst x).
Definition dd (x : layer) : option D := snd (fst x).
Definition ch (x : layer) : string := snd x.
Definition slice {A} (p n : nat) (l : list A) : list A := firstn n (skipn p l).
Lemma slice_app {A} p n (l m : list A) : (p + n <= length l)%nat -> slice p n (l ++ m) = slice p n l.
Proof.
  intros Hl. unfold slice. rewrite skipn_app, firstn_app, skipn_length.
  replace (n - (length l - p))%nat with 0%nat by lia. cbn. apply app_nil_r.
Qed.
Lemma nth_error_ext {A} (l m : list A) i x : nth_error l i = Some x -> nth_error (l ++ m) i = Some x.
Proof. intros E. rewrite nth_error_app1; auto. apply nth_error_Some. congruence. Qed.
Lemma nth_error_end {A} (l : list A) x k : k = length l -> nth_error (l ++ [x]) k = Some x.
Proof. intros ->. rewrite nth_error_app2 by lia. now rewrite Nat.sub_diag. Qed.
Lemma append_last_snoc {A} (l : list (list A)) a x : append_last (l ++ [a]) x = l ++ [a ++ [x]].
Proof.
  induction l as [|b l IH]; [reflexivity|]. cbn [app]. destruct (l ++ [a]) as [|e r] eqn:E.
  - destruct l; discriminate.
  - change (append_last (b :: e :: r) x) with (b :: append_last (e :: r) x). now rewrite IH.
Qed.
(** A finished stack: consecutive layers from an incoherent one to the next incoherent one. *)
Record closed (pre : list layer) (s : gstate (N := N) (D := D)) (j : nat) : Prop := {
  cl_stack : exists p m L mi mo,
    nth_error (g_all_from_stack s) j = Some (seq p (L + 2)) /\ (1 <= L)%nat /\ (p + L + 2 <= length pre)%nat /\
    nth_error (g_inc_from_all s) p = Some (Some mi) /\ nth_error (g_inc_from_stack s) j = Some mi /\
    m = (p + L + 1)%nat /\ nth_error (g_inc_from_all s) m = Some (Some mo) /\
    nth_error (g_stack_from_inc s) mo = Some (Some j) /\ mo = S mi /\
    (forall i, (1 <= i <= L)%nat -> nth_error (g_stack_from_all s) (p + i) = Some (Some (j, i))) /\
    nth_error (g_stack_n s) j = Some (map nn (slice p (L + 2) pre)) /\
    nth_error (g_stack_d s) j = Some (None :: map dd (slice (p + 1) L pre) ++ [None]) }.
Record inv (pre : list layer) (s : gstate (N := N) (D := D)) : Prop := {
  i_len : length (g_inc_from_all s) = length pre /\ length (g_stack_from_all s) = length pre /\
          length (g_all_from_inc s) = g_inc s /\ length (g_stack_from_inc s) = g_inc s /\
          length (g_stack_n s) = g_stack s /\ length (g_stack_d s) = g_stack s;
  i_cls : forall k x, nth_error pre k = Some x ->
    (ch x = "i"%string /\ nth_error (g_stack_from_all s) k = Some None /\
     exists m, nth_error (g_inc_from_all s) k = Some (Some m) /\ nth_error (g_all_from_inc s) m = Some k) \/
    (ch x = "c"%string /\ nth_error (g_inc_from_all s) k = Some None /\
     exists j w l, nth_error (g_stack_from_all s) k = Some (Some (j, w)) /\ (1 <= w)%nat /\
                   nth_error (g_all_from_stack s) j = Some l /\ nth_error l w = Some k);
  i_inc : forall m k, nth_error (g_all_from_inc s) m = Some k ->
    nth_error (g_inc_from_all s) k = Some (Some m);
  i_inc_sorted : forall m k, nth_error (g_all_from_inc s) m = Some k -> (k < length pre)%nat;
  i_closed : forall j, (j < g_stack s)%nat -> closed pre s j;
  i_sfi : forall m j, nth_error (g_stack_from_inc s) m = Some (Some j) ->
    (j < g_stack s)%nat /\ exists mi, nth_error (g_inc_from_stack s) j = Some mi /\ m = S mi;
  i_adj : forall k x y, nth_error pre k = Some x -> nth_error pre (S k) = Some y ->
    ch x = "c"%string -> ch y = "c"%string -> exists j w,
    nth_error (g_stack_from_all s) k = Some (Some (j, w)) /\
    nth_error (g_stack_from_all s) (S k) = Some (Some (j, S w));
  i_open : match g_open s with
    | None => length (g_all_from_stack s) = g_stack s /\ length (g_inc_from_stack s) = g_stack s /\
        (pre <> [] -> (1 <= g_inc s)%nat /\
           nth_error (g_inc_from_all s) (length pre - 1) = Some (Some (g_inc s - 1)%nat))
    | Some w => exists p mi afs ifs,
        g_all_from_stack s = afs ++ [seq p (w + 1)] /\ g_inc_from_stack s = ifs ++ [mi] /\
        length afs = g_stack s /\ length ifs = g_stack s /\ (1 <= w)%nat /\ (p + w + 1 = length pre)%nat /\
        g_inc s = S mi /\
        nth_error (g_inc_from_all s) p = Some (Some mi) /\
        (forall i, (1 <= i <= w)%nat -> nth_error (g_stack_from_all s) (p + i) = Some (Some (g_stack s, i))) /\
        g_ongoing_n s = map nn (slice p (w + 1) pre) /\
        g_ongoing_d s = None :: map dd (slice (p + 1) w pre)
    end }.
Definition sub {A} (l m : list A) : Prop := forall i x, nth_error l i = Some x -> nth_error m i = Some x.
Lemma sub_app {A} (l m : list A) : sub l (l ++ m).
Proof. intros i x. apply nth_error_ext. Qed.
Lemma sub_refl {A} (l : list A) : sub l l.
Proof. intros i x. auto. Qed.
Lemma closed_mono pre x (s s' : gstate (N := N) (D := D)) j : closed pre s j ->
  (forall a, nth_error (g_all_from_stack s) j = Some a -> nth_error (g_all_from_stack s') j = Some a) ->
  sub (g_inc_from_all s) (g_inc_from_all s') -> sub (g_inc_from_stack s) (g_inc_from_stack s') ->
  sub (g_stack_from_inc s) (g_stack_from_inc s') -> sub (g_stack_from_all s) (g_stack_from_all s') ->
  sub (g_stack_n s) (g_stack_n s') -> sub (g_stack_d s) (g_stack_d s') -> closed (pre ++ [x]) s' j.
Proof.
  intros [(p & m & L & mi & mo & H1 & H2 & H3 & H4 & H5 & H6 & H7 & H8 & H9 & H10 & H11 & H12)] S1 S2 S3 S4 S5 S6 S7.
  constructor. exists p, m, L, mi, mo. rewrite app_length. cbn [length].
  rewrite !slice_app by lia. repeat split; auto; try lia.
Qed.
Lemma nth_error_snoc {A} (l : list A) x k y : nth_error (l ++ [x]) k = Some y ->
  ((k < length l)%nat /\ nth_error l k = Some y) \/ (k = length l /\ y = x).
Proof.
  intros E. destruct (Nat.lt_ge_cases k (length l)) as [Hk|Hk].
  - left. now rewrite nth_error_app1 in E.
  - right. assert (k < length (l ++ [x]))%nat by (apply nth_error_Some; congruence).
    rewrite app_length in H0. cbn in H0. assert (k = length l) by lia. subst.
    rewrite nth_error_end in E by reflexivity. split; congruence.
Qed.
Lemma slice_snoc {A} p n (l : list A) x : (p + n = length l)%nat -> slice p (n + 1) (l ++ [x]) = slice p n l ++ [x].
Proof.
  intros Hl. unfold slice. rewrite skipn_app. replace (p - length l)%nat with 0%nat by lia.
  cbn [skipn]. rewrite (firstn_all2 (n := n + 1)) by (rewrite app_length, skipn_length; cbn; lia).
  rewrite (firstn_all2 (n := n)) by (rewrite skipn_length; lia). reflexivity.
Qed.
Lemma seq_end a n : seq a (n + 1) = seq a n ++ [(a + n)%nat].
Proof. rewrite seq_app. reflexivity. Qed.
Lemma nth_error_seq a n i : (i < n)%nat -> nth_error (seq a n) i = Some (a + i)%nat.
Proof.
  intros Hi. rewrite (nth_error_nth' _ 0%nat) by (rewrite seq_length; lia). now rewrite seq_nth.
Qed.
Lemma last_letter pre (s : gstate (N := N) (D := D)) k x : inv pre s -> length pre = S k -> nth_error pre k = Some x ->
  ch x = "c"%string ->
  exists w, g_open s = Some w /\ nth_error (g_stack_from_all s) k = Some (Some (g_stack s, w)).
Proof.
  intros I Hk Hx Hc. assert (O := i_open _ _ I). destruct (g_open s) as [w|].
  - destruct O as (p & mi & afs & ifs & _ & _ & _ & _ & Hw & Hp & _ & _ & Hs & _).
    exists w. split; auto. replace k with (p + w)%nat by lia. apply Hs. lia.
  - destruct O as (_ & _ & O). destruct (O ltac:(intros ->; discriminate)) as [_ E].
    rewrite Hk in E. replace (S k - 1)%nat with k in E by lia.
    destruct (i_cls _ _ I k x Hx) as [(Hi & _)|(_ & E2 & _)]; congruence.
Qed.
Lemma step_c_new pre prev k n d (s s' : gstate (N := N) (D := D)) :
  inv pre s -> k = length pre -> (exists pre' x, pre = pre' ++ [x] /\ nn x = prev) ->
  g_open s = None -> group_step prev k n d "c" s = Ok s' -> inv (pre ++ [(n, d, "c"%string)]) s'.
Proof.
  intros I Hk (pre' & xl & Hpre & Hprev) Ho E.
  assert (O := i_open _ _ I). rewrite Ho in O. destruct O as (O1 & O2 & O3).
  assert (Hne : pre <> []) by (rewrite Hpre; destruct pre'; discriminate).
  destruct (O3 Hne) as [O4 O5]. clear O3.
  destruct (i_len _ _ I) as (L1 & L2 & L3 & L4 & L5 & L6).
  assert (Hlen : (1 <= length pre)%nat) by (rewrite Hpre, app_length; cbn; lia).
  destruct s as [inc st op sd sn od on afi ifa afs sfa ifs sfi].
  cbn [g_inc g_stack g_open g_stack_d g_stack_n g_ongoing_d g_ongoing_n g_all_from_inc g_inc_from_all
       g_all_from_stack g_stack_from_all g_inc_from_stack g_stack_from_inc] in *. subst op.
  cbn [group_step String.eqb Ascii.eqb Bool.eqb] in E. injection E as <-.
  constructor; cbn [g_inc g_stack g_open g_stack_d g_stack_n g_ongoing_d g_ongoing_n g_all_from_inc g_inc_from_all
       g_all_from_stack g_stack_from_all g_inc_from_stack g_stack_from_inc].
  - rewrite !app_length. cbn. repeat split; lia.
  - intros i x Hx. destruct (nth_error_snoc _ _ _ _ Hx) as [[Hi Hx']|[Hi Hx']].
    + destruct (i_cls _ _ I i x Hx') as [(A1 & A2 & m & A3 & A4)|(A1 & A2 & j & w & l & A3 & A4 & A5 & A6)];
        [left|right]; split; auto; split; try (now apply nth_error_ext).
      * exists m. split; [now apply nth_error_ext|exact A4].
      * exists j, w, l. split; [now apply nth_error_ext|]. split; auto. split; [now apply nth_error_ext|auto].
    + right. subst x. split; [reflexivity|]. split; [apply nth_error_end; lia|].
      exists st, 1%nat, [(k - 1)%nat; k]. repeat split; try lia.
      * apply nth_error_end. lia.
      * apply nth_error_end. lia.
      * cbn. congruence.
  - intros m i Hm. apply nth_error_ext. now apply (i_inc _ _ I).
  - intros m i Hm. rewrite app_length. cbn. assert (Q := i_inc_sorted _ _ I m i Hm). lia.
  - intros j Hj. apply (closed_mono _ _ _ _ _ (i_closed _ _ I j Hj)); cbn; try apply sub_refl; try apply sub_app.
  - intros m j Hm. destruct (i_sfi _ _ I m j Hm) as (A1 & mi & A2 & A3). split; auto. exists mi.
    split; [now apply nth_error_ext|exact A3].
  - intros i x y Hx Hy Hcx Hcy. destruct (nth_error_snoc _ _ _ _ Hx) as [[Hi Hx']|[Hi Hx']];
      destruct (nth_error_snoc _ _ _ _ Hy) as [[Hj Hy']|[Hj Hy']]; try lia.
    + destruct (i_adj _ _ I i x y Hx' Hy' Hcx Hcy) as (j & w & A1 & A2).
      exists j, w. split; now apply nth_error_ext.
    + destruct (last_letter _ _ i x I ltac:(lia) Hx' Hcx) as (w & W & _). discriminate W.
  - exists (length pre - 1)%nat, (inc - 1)%nat, afs, ifs. subst k. rewrite app_length. cbn [length].
    repeat split; try lia.
    + cbn. repeat f_equal. lia.
    + now apply nth_error_ext.
    + intros i Hi. assert (i = 1)%nat by lia. subst i. apply nth_error_end. lia.
    + subst pre. unfold slice. rewrite app_length. cbn [length].
      replace (length pre' + 1 - 1)%nat with (length pre' + 0)%nat by lia.
      rewrite <- app_assoc, skipn_app. rewrite skipn_all2 by lia.
      replace (length pre' + 0 - length pre')%nat with 0%nat by lia. cbn. now rewrite Hprev.
    + unfold slice. replace (length pre - 1 + 1)%nat with (length pre + 0)%nat by lia.
      rewrite skipn_app, skipn_all2 by lia. replace (length pre + 0 - length pre)%nat with 0%nat by lia. reflexivity.
Qed.
Lemma step_c_more pre prev k n d (s s' : gstate (N := N) (D := D)) w :
  inv pre s -> k = length pre ->
  g_open s = Some w -> group_step prev k n d "c" s = Ok s' -> inv (pre ++ [(n, d, "c"%string)]) s'.
Proof.
  intros I Hk Ho E.
  assert (O := i_open _ _ I). rewrite Ho in O.
  destruct O as (p & mi & afs' & ifs' & O1 & O2 & O3 & O4 & O5 & O6 & O7 & O8 & O9 & O10 & O11).
  destruct (i_len _ _ I) as (L1 & L2 & L3 & L4 & L5 & L6).
  destruct s as [inc st op sd sn od on afi ifa afs sfa ifs sfi].
  cbn [g_inc g_stack g_open g_stack_d g_stack_n g_ongoing_d g_ongoing_n g_all_from_inc g_inc_from_all
       g_all_from_stack g_stack_from_all g_inc_from_stack g_stack_from_inc] in *. subst op.
  cbn [group_step String.eqb Ascii.eqb Bool.eqb] in E. injection E as <-.
  rewrite O1. rewrite append_last_snoc.
  assert (Hseq : seq p (w + 1) ++ [k] = seq p (w + 1 + 1)).
  { rewrite (seq_end p (w + 1)). do 2 f_equal. lia. }
  rewrite Hseq.
  constructor; cbn [g_inc g_stack g_open g_stack_d g_stack_n g_ongoing_d g_ongoing_n g_all_from_inc g_inc_from_all
       g_all_from_stack g_stack_from_all g_inc_from_stack g_stack_from_inc].
  - rewrite !app_length. cbn. repeat split; lia.
  - intros i x Hx. destruct (nth_error_snoc _ _ _ _ Hx) as [[Hi Hx']|[Hi Hx']].
    + destruct (i_cls _ _ I i x Hx') as [(A1 & A2 & m & A3 & A4)|(A1 & A2 & j & v & l & A3 & A4 & A5 & A6)];
        cbn [g_inc_from_all g_all_from_inc g_stack_from_all g_all_from_stack] in *;
        [left|right]; split; auto; split; try (now apply nth_error_ext).
      * exists m. split; [now apply nth_error_ext|exact A4].
      * rewrite O1 in A5. destruct (nth_error_snoc _ _ _ _ A5) as [[Hj A5']|[Hj A5']].
        -- exists j, v, l. repeat split; auto; now apply nth_error_ext.
        -- exists j, v, (seq p (w + 1 + 1)). repeat split; auto.
           ++ now apply nth_error_ext.
           ++ now apply nth_error_end.
           ++ subst l. rewrite <- Hseq. now apply nth_error_ext.
    + right. subst x. split; [reflexivity|]. split; [apply nth_error_end; lia|].
      exists st, (w + 1)%nat, (seq p (w + 1 + 1)). repeat split; try lia.
      * apply nth_error_end. lia.
      * apply nth_error_end. lia.
      * rewrite nth_error_seq by lia. f_equal. lia.
  - intros m i Hm. apply nth_error_ext. now apply (i_inc _ _ I).
  - intros m i Hm. rewrite app_length. cbn. assert (Q := i_inc_sorted _ _ I m i Hm). lia.
  - intros j Hj. apply (closed_mono _ _ _ _ _ (i_closed _ _ I j Hj)); cbn; try apply sub_refl; try apply sub_app.
    intros a. rewrite O1, !nth_error_app1 by lia. auto.
  - intros m j Hm. apply (i_sfi _ _ I m j Hm).
  - intros i x y Hx Hy Hcx Hcy. destruct (nth_error_snoc _ _ _ _ Hx) as [[Hi Hx']|[Hi Hx']];
      destruct (nth_error_snoc _ _ _ _ Hy) as [[Hj Hy']|[Hj Hy']]; try lia.
    + destruct (i_adj _ _ I i x y Hx' Hy' Hcx Hcy) as (j & v & A1 & A2).
      exists j, v. split; now apply nth_error_ext.
    + destruct (last_letter _ _ i x I ltac:(lia) Hx' Hcx) as (v & W & W2). cbn in W, W2. injection W as <-.
      exists st, w. split; [now apply nth_error_ext|].
      rewrite (nth_error_end _ (Some (st, w + 1)%nat)) by lia. do 3 f_equal. lia.
  - exists p, mi, afs', ifs'. rewrite app_length. cbn [length].
    split; [reflexivity|]. split; [exact O2|]. repeat split; try lia.
    + now apply nth_error_ext.
    + intros i Hi. destruct (Nat.eq_dec i (w + 1)) as [->|Hn].
      * apply nth_error_end. lia.
      * apply nth_error_ext, O9. lia.
    + rewrite slice_snoc by lia. rewrite map_app, O10. reflexivity.
    + rewrite slice_snoc by lia. rewrite map_app, O11. reflexivity.
Qed.
Lemma step_i_plain pre prev k n d (s s' : gstate (N := N) (D := D)) :
  inv pre s -> k = length pre ->
  g_open s = None -> group_step prev k n d "i" s = Ok s' -> inv (pre ++ [(n, d, "i"%string)]) s'.
Proof.
  intros I Hk Ho E.
  assert (O := i_open _ _ I). rewrite Ho in O. destruct O as (O1 & O2 & O3).
  destruct (i_len _ _ I) as (L1 & L2 & L3 & L4 & L5 & L6).
  destruct s as [inc st op sd sn od on afi ifa afs sfa ifs sfi].
  cbn [g_inc g_stack g_open g_stack_d g_stack_n g_ongoing_d g_ongoing_n g_all_from_inc g_inc_from_all
       g_all_from_stack g_stack_from_all g_inc_from_stack g_stack_from_inc] in *. subst op.
  cbn [group_step String.eqb Ascii.eqb Bool.eqb] in E. injection E as <-.
  constructor; cbn [g_inc g_stack g_open g_stack_d g_stack_n g_ongoing_d g_ongoing_n g_all_from_inc g_inc_from_all
       g_all_from_stack g_stack_from_all g_inc_from_stack g_stack_from_inc].
  - rewrite !app_length. cbn. repeat split; lia.
  - intros i x Hx. destruct (nth_error_snoc _ _ _ _ Hx) as [[Hi Hx']|[Hi Hx']].
    + destruct (i_cls _ _ I i x Hx') as [(A1 & A2 & m & A3 & A4)|(A1 & A2 & j & w & l & A3 & A4 & A5 & A6)];
        [left|right]; split; auto; split; try (now apply nth_error_ext).
      * exists m. split; now apply nth_error_ext.
      * exists j, w, l. split; [now apply nth_error_ext|]. auto.
    + left. subst x. split; [reflexivity|]. split; [apply nth_error_end; lia|].
      exists inc. split; [apply nth_error_end; lia|]. rewrite nth_error_end by lia. congruence.
  - intros m i Hm. destruct (nth_error_snoc _ _ _ _ Hm) as [[Hi Hm']|[Hi Hm']].
    + apply nth_error_ext. now apply (i_inc _ _ I).
    + subst. rewrite nth_error_end by lia. congruence.
  - intros m i Hm. rewrite app_length. cbn. destruct (nth_error_snoc _ _ _ _ Hm) as [[Hi Hm']|[Hi Hm']]; [|lia].
    assert (Q := i_inc_sorted _ _ I m i Hm'). lia.
  - intros j Hj. apply (closed_mono _ _ _ _ _ (i_closed _ _ I j Hj)); cbn; try apply sub_refl; try apply sub_app; auto.
  - intros m j Hm. destruct (nth_error_snoc _ _ _ _ Hm) as [[Hi Hm']|[Hi Hm']]; [|discriminate].
    apply (i_sfi _ _ I m j Hm').
  - intros i x y Hx Hy Hcx Hcy. destruct (nth_error_snoc _ _ _ _ Hx) as [[Hi Hx']|[Hi Hx']];
      destruct (nth_error_snoc _ _ _ _ Hy) as [[Hj Hy']|[Hj Hy']]; try lia.
    + destruct (i_adj _ _ I i x y Hx' Hy' Hcx Hcy) as (j & w & A1 & A2).
      exists j, w. split; now apply nth_error_ext.
    + subst y. discriminate Hcy.
  - split; auto. split; auto. intros _. split; [lia|]. rewrite app_length. cbn [length].
    rewrite nth_error_end by lia. do 2 f_equal. lia.
Qed.
Lemma step_i_close pre prev k n d (s s' : gstate (N := N) (D := D)) w :
  inv pre s -> k = length pre ->
  g_open s = Some w -> group_step prev k n d "i" s = Ok s' -> inv (pre ++ [(n, d, "i"%string)]) s'.
Proof.
  intros I Hk Ho E.
  assert (O := i_open _ _ I). rewrite Ho in O.
  destruct O as (p & mi & afs' & ifs' & O1 & O2 & O3 & O4 & O5 & O6 & O7 & O8 & O9 & O10 & O11).
  destruct (i_len _ _ I) as (L1 & L2 & L3 & L4 & L5 & L6).
  destruct s as [inc st op sd sn od on afi ifa afs sfa ifs sfi].
  cbn [g_inc g_stack g_open g_stack_d g_stack_n g_ongoing_d g_ongoing_n g_all_from_inc g_inc_from_all
       g_all_from_stack g_stack_from_all g_inc_from_stack g_stack_from_inc] in *. subst op.
  cbn [group_step String.eqb Ascii.eqb Bool.eqb] in E. injection E as <-.
  rewrite O1. rewrite append_last_snoc.
  assert (Hseq : seq p (w + 1) ++ [k] = seq p (w + 2)).
  { replace (w + 2)%nat with (w + 1 + 1)%nat by lia. rewrite (seq_end p (w + 1)). do 2 f_equal. lia. }
  rewrite Hseq.
  constructor; cbn [g_inc g_stack g_open g_stack_d g_stack_n g_ongoing_d g_ongoing_n g_all_from_inc g_inc_from_all
       g_all_from_stack g_stack_from_all g_inc_from_stack g_stack_from_inc].
  - rewrite !app_length. cbn. repeat split; lia.
  - intros i x Hx. destruct (nth_error_snoc _ _ _ _ Hx) as [[Hi Hx']|[Hi Hx']].
    + destruct (i_cls _ _ I i x Hx') as [(A1 & A2 & m & A3 & A4)|(A1 & A2 & j & v & l & A3 & A4 & A5 & A6)];
        cbn [g_inc_from_all g_all_from_inc g_stack_from_all g_all_from_stack] in *;
        [left|right]; split; auto; split; try (now apply nth_error_ext).
      * exists m. split; now apply nth_error_ext.
      * rewrite O1 in A5. destruct (nth_error_snoc _ _ _ _ A5) as [[Hj A5']|[Hj A5']].
        -- exists j, v, l. repeat split; auto; now apply nth_error_ext.
        -- exists j, v, (seq p (w + 2)). repeat split; auto.
           ++ now apply nth_error_ext.
           ++ now apply nth_error_end.
           ++ subst l. rewrite <- Hseq. now apply nth_error_ext.
    + left. subst x. split; [reflexivity|]. split; [apply nth_error_end; lia|].
      exists inc. split; [apply nth_error_end; lia|]. rewrite nth_error_end by lia. congruence.
  - intros m i Hm. destruct (nth_error_snoc _ _ _ _ Hm) as [[Hi Hm']|[Hi Hm']].
    + apply nth_error_ext. now apply (i_inc _ _ I).
    + subst. rewrite nth_error_end by lia. congruence.
  - intros m i Hm. rewrite app_length. cbn. destruct (nth_error_snoc _ _ _ _ Hm) as [[Hi Hm']|[Hi Hm']]; [|lia].
    assert (Q := i_inc_sorted _ _ I m i Hm'). lia.
  - intros j Hj. destruct (Nat.eq_dec j st) as [->|Hn].
    + constructor. exists p, (p + w + 1)%nat, w, mi, inc.
      cbn [g_inc g_stack g_open g_stack_d g_stack_n g_ongoing_d g_ongoing_n g_all_from_inc g_inc_from_all
           g_all_from_stack g_stack_from_all g_inc_from_stack g_stack_from_inc].
      rewrite app_length. cbn [length]. rewrite O2.
      split; [apply nth_error_end; lia|]. split; [lia|]. split; [lia|].
      split; [now apply nth_error_ext|]. split; [apply nth_error_end; lia|]. split; [reflexivity|].
      split; [apply nth_error_end; lia|]. split; [apply nth_error_end; lia|]. split; [lia|].
      split; [intros i Hi; apply nth_error_ext, O9, Hi|]. split.
      * replace (w + 2)%nat with (w + 1 + 1)%nat by lia. rewrite slice_snoc by lia.
        rewrite map_app, O10. apply nth_error_end. lia.
      * rewrite slice_app by lia. rewrite O11. apply nth_error_end. lia.
    + assert (Hj' : (j < st)%nat) by lia.
      apply (closed_mono _ _ _ _ _ (i_closed _ _ I j Hj')); cbn; try apply sub_refl; try apply sub_app.
      intros a. rewrite O1, !nth_error_app1 by lia. auto.
  - intros m j Hm. destruct (nth_error_snoc _ _ _ _ Hm) as [[Hi Hm']|[Hi Hm']].
    + destruct (i_sfi _ _ I m j Hm') as (A1 & A2). cbn in A1, A2. split; [lia|exact A2].
    + injection Hm' as ->. split; [lia|]. exists mi. rewrite O2. split; [apply nth_error_end; lia|lia].
  - intros i x y Hx Hy Hcx Hcy. destruct (nth_error_snoc _ _ _ _ Hx) as [[Hi Hx']|[Hi Hx']];
      destruct (nth_error_snoc _ _ _ _ Hy) as [[Hj Hy']|[Hj Hy']]; try lia.
    + destruct (i_adj _ _ I i x y Hx' Hy' Hcx Hcy) as (j & v & A1 & A2).
      exists j, v. split; now apply nth_error_ext.
    + subst y. discriminate Hcy.
  - rewrite O2, !app_length. cbn [length]. split; [lia|]. split; [lia|]. intros _. split; [lia|].
    rewrite nth_error_end by lia. do 2 f_equal. lia.
Qed.

Definition letter (c : string) : Prop := c = "c"%string \/ c = "i"%string.
Lemma step_inv pre prev k n d c (s : gstate (N := N) (D := D)) :
  inv pre s -> k = length pre -> (exists pre' x, pre = pre' ++ [x] /\ nn x = prev) ->
  letter c -> exists s', group_step prev k n d c s = Ok s' /\ inv (pre ++ [(n, d, c)]) s'.
Proof.
  intros I Hk Hp Hc.
  assert (T : exists s', group_step prev k n d c s = Ok s').
  { destruct s as [inc st op sd sn od on afi ifa afs sfa ifs sfi].
    destruct Hc as [-> | ->]; destruct op; eexists; reflexivity. }
  destruct T as [s' T]. exists s'. split; [exact T|].
  destruct (g_open s) as [w|] eqn:O; destruct Hc as [-> | ->].
  - eapply step_c_more; eauto.
  - eapply step_i_close; eauto.
  - eapply step_c_new; eauto.
  - eapply step_i_plain; eauto.
Qed.
Lemma loop_inv ls : forall pre prev k (s : gstate (N := N) (D := D)),
  inv pre s -> k = length pre -> (exists pre' x, pre = pre' ++ [x] /\ nn x = prev) ->
  Forall (fun x : layer => letter (ch x)) ls ->
  exists s', group_loop prev k ls s = Ok s' /\ inv (pre ++ ls) s'.
Proof.
  induction ls as [|[[n d] c] ls IH]; intros pre prev k s I Hk Hp Hf.
  - exists s. rewrite app_nil_r. split; [reflexivity|exact I].
  - destruct (step_inv pre prev k n d c s I Hk Hp (Forall_inv Hf)) as (s1 & E1 & I1).
    destruct (IH (pre ++ [(n, d, c)]) n (S k) s1 I1) as (s' & E & I').
    + rewrite app_length. cbn. lia.
    + exists pre, (n, d, c). split; reflexivity.
    + exact (Forall_inv_tail Hf).
    + exists s'. split.
      * cbn [group_loop]. rewrite E1. exact E.
      * rewrite <- app_assoc in I'. exact I'.
Qed.
Lemma loop_bad ls : forall prev k (s : gstate (N := N) (D := D)),
  ~ Forall (fun x : layer => letter (ch x)) ls -> group_loop prev k ls s = Err ValueError.
Proof.
  induction ls as [|[[n d] c] ls IH]; intros prev k s Hf; [destruct Hf; constructor|].
  cbn [group_loop].
  destruct s as [inc st op sd sn od on afi ifa afs sfa ifs sfi].
  destruct (String.eqb_spec c "c") as [->|N1]; [|destruct (String.eqb_spec c "i") as [->|N2]].
  - assert (T : ~ Forall (fun x : layer => letter (ch x)) ls)
      by (intros T; apply Hf; constructor; [left; reflexivity|exact T]).
    destruct op; cbn [group_step String.eqb Ascii.eqb Bool.eqb bindR]; now apply IH.
  - assert (T : ~ Forall (fun x : layer => letter (ch x)) ls)
      by (intros T; apply Hf; constructor; [right; reflexivity|exact T]).
    destruct op; cbn [group_step String.eqb Ascii.eqb Bool.eqb bindR]; now apply IH.
  - cbn [group_step]. apply String.eqb_neq in N1, N2. now rewrite N1, N2.
Qed.
Lemma inv_first prev n d : exists s1, group_step prev 0 n d "i" (g0 (N := N) (D := D)) = Ok s1 /\
  inv [(n, d, "i"%string)] s1.
Proof.
  eexists. split; [reflexivity|].
  constructor; cbn [g_inc g_stack g_open g_stack_d g_stack_n g_ongoing_d g_ongoing_n g_all_from_inc g_inc_from_all
       g_all_from_stack g_stack_from_all g_inc_from_stack g_stack_from_inc app].
  - repeat split.
  - intros [|k] x Hx; [|destruct k; discriminate]. injection Hx as <-. left. split; [reflexivity|].
    split; [reflexivity|]. exists 0%nat. split; reflexivity.
  - intros [|m] k Hm; [|destruct m; discriminate]. injection Hm as <-. reflexivity.
  - intros [|m] k Hm; [|destruct m; discriminate]. injection Hm as <-. cbn. lia.
  - intros j Hj. lia.
  - intros [|m] j Hm; [|destruct m]; discriminate.
  - intros k x y _ Hy. destruct k; discriminate.
  - split; [reflexivity|]. split; [reflexivity|]. intros _. split; [lia|reflexivity].
Qed.
(** Acceptance: exactly the lists that begin and end with an infinite incoherent layer,
    have equal lengths and use only the two letters. *)
Definition well_formed (ns : list N) (ds : list (option D)) (cs : list string) : Prop :=
  length ns = length ds /\ length ds = length cs /\ cs <> [] /\
  hd_error cs = Some "i"%string /\ hd_error (rev cs) = Some "i"%string /\
  hd_error ds = Some None /\ hd_error (rev ds) = Some None /\
  Forall letter cs.
Lemma combine_letters (ns : list N) : forall (ds : list (option D)) cs,
  length ns = length ds -> length ds = length cs ->
  (Forall (fun x : layer => letter (ch x)) (combine (combine ns ds) cs) <-> Forall letter cs).
Proof.
  induction ns as [|n ns IH]; intros [|d ds] [|c cs] H1 H2; try discriminate; [split; constructor|].
  injection H1 as H1. injection H2 as H2. cbn [combine]. specialize (IH ds cs H1 H2).
  split; intros F; constructor.
  - exact (Forall_inv F).
  - apply IH. exact (Forall_inv_tail F).
  - exact (Forall_inv F).
  - apply IH. exact (Forall_inv_tail F).
Qed.
Theorem C45_accepts : forall ns ds cs,
  well_formed ns ds cs <-> exists g, inc_group_layers (N := N) (D := D) ns ds cs = Ok g.
Proof.
  intros ns ds cs. split.
  - intros (L1 & L2 & Hc & H1 & H2 & H3 & H4 & HF).
    destruct cs as [|c0 cs]; [congruence|]. destruct ds as [|d0 ds]; [discriminate|].
    destruct ns as [|n0 ns]; [discriminate|].
    unfold inc_group_layers. rewrite H2, H3, H4. cbn [hd_error] in *. injection H1 as ->. injection H3 as ->.
    cbn [is_inf_d is_i String.eqb Ascii.eqb Bool.eqb andb negb].
    rewrite <- L2, <- L1, Nat.eqb_refl. cbn [andb negb].
    cbn [combine]. destruct (inv_first n0 n0 None) as (s1 & E1 & I1).
    cbn [group_loop]. rewrite E1. cbn [bindR].
    destruct (loop_inv (combine (combine ns ds) cs) _ n0 1 s1 I1 eq_refl) as (s' & E & _).
    + exists [], (n0, None, "i"%string). split; reflexivity.
    + apply combine_letters; [now injection L1|now injection L2|exact (Forall_inv_tail HF)].
    + exists s'. exact E.
  - intros [g E]. unfold inc_group_layers in E.
    destruct ds as [|d0 ds]; [discriminate|]. destruct cs as [|c0 cs]; [discriminate|].
    destruct (is_inf_d (hd_error (d0 :: ds)) && is_inf_d (hd_error (rev (d0 :: ds)))) eqn:B1; [|discriminate].
    destruct (is_i (hd_error (c0 :: cs)) && is_i (hd_error (rev (c0 :: cs)))) eqn:B2; [|discriminate].
    destruct ((length ns =? length (d0 :: ds))%nat && (length (d0 :: ds) =? length (c0 :: cs))%nat) eqn:B3;
      [|discriminate].
    cbn [negb] in E. apply andb_prop in B1, B2, B3. destruct B1 as [B1 B1'], B2 as [B2 B2'], B3 as [B3 B3'].
    apply Nat.eqb_eq in B3, B3'.
    assert (X : forall o : option string, is_i o = true -> o = Some "i"%string).
    { intros [o|] X; [|discriminate]. cbn in X. apply String.eqb_eq in X. congruence. }
    assert (Y : forall o : option (option D), is_inf_d o = true -> o = Some None).
    { intros [[o|]|] Y; cbn in Y; congruence. }
    repeat split; auto; [discriminate|].
    destruct ns as [|n0 ns]; [discriminate|].
    destruct (Forall_dec letter) with (l := c0 :: cs) as [F|F]; auto.
    { intros c. unfold letter. destruct (string_dec c "c"); [left; auto|].
      destruct (string_dec c "i"); [left; auto|right; intros [|]; contradiction]. }
    rewrite loop_bad in E; [discriminate|]. intros F'. apply F.
    now apply (combine_letters (n0 :: ns) (d0 :: ds) (c0 :: cs)).
Qed.
Lemma group_inv ns ds cs g : inc_group_layers (N := N) (D := D) ns ds cs = Ok g ->
  inv (combine (combine ns ds) cs) g /\ g_open g = None.
Proof.
  intros E. assert (W : well_formed ns ds cs) by (apply C45_accepts; eauto).
  destruct W as (L1 & L2 & Hc & H1 & H2 & H3 & H4 & HF).
  destruct cs as [|c0 cs]; [congruence|]. destruct ds as [|d0 ds]; [discriminate|].
  destruct ns as [|n0 ns]; [discriminate|].
  assert (I : inv (combine (combine (n0 :: ns) (d0 :: ds)) (c0 :: cs)) g).
  { unfold inc_group_layers in E. rewrite H2, H3, H4 in E. cbn [hd_error] in *. injection H1 as ->. injection H3 as ->.
    cbn [is_inf_d is_i String.eqb Ascii.eqb Bool.eqb andb negb] in E.
    rewrite <- L2, <- L1, Nat.eqb_refl in E. cbn [andb negb] in E.
    cbn [combine] in *. destruct (inv_first n0 n0 None) as (s1 & E1 & I1).
    cbn [group_loop] in E. rewrite E1 in E. cbn [bindR] in E.
    destruct (loop_inv (combine (combine ns ds) cs) _ n0 1 s1 I1 eq_refl) as (s' & E' & I').
    + exists [], (n0, None, "i"%string). split; reflexivity.
    + apply combine_letters; [now injection L1|now injection L2|exact (Forall_inv_tail HF)].
    + rewrite E' in E. injection E as <-. exact I'. }
  split; [exact I|].
  destruct (g_open g) as [w|] eqn:O; [|reflexivity]. exfalso.
  set (ls := combine (combine (n0 :: ns) (d0 :: ds)) (c0 :: cs)) in *.
  assert (Hlen : length ls = length (c0 :: cs)).
  { unfold ls. rewrite !combine_length, L1, L2, !Nat.min_id. reflexivity. }
  assert (Hm : map ch ls = c0 :: cs).
  { unfold ls, ch. clear - L1 L2. rewrite <- L1 in L2.
    assert (Q : length (combine (n0 :: ns) (d0 :: ds)) = length (c0 :: cs)) by (rewrite combine_length; lia).
    set (u := combine (n0 :: ns) (d0 :: ds)) in *. clearbody u. clear L1 L2.
    revert u Q. generalize (c0 :: cs). intros l. induction l as [|c l IH]; intros [|x u] Q; try discriminate; [reflexivity|].
    cbn. f_equal. apply IH. now injection Q. }
  assert (Hlast : nth_error (map ch ls) (length ls - 1) = Some "i"%string).
  { rewrite Hm, Hlen. destruct (rev (c0 :: cs)) as [|z r] eqn:R; [discriminate|]. injection H2 as ->.
    assert (Q : c0 :: cs = rev r ++ ["i"%string]) by (rewrite <- (rev_involutive (c0 :: cs)), R; reflexivity).
    rewrite Q, app_length. apply nth_error_end. cbn. lia. }
  rewrite nth_error_map in Hlast. destruct (nth_error ls (length ls - 1)) as [x|] eqn:X; [|discriminate].
  injection Hlast as Hx.
  assert (Op := i_open _ _ I). rewrite O in Op.
  destruct Op as (p & mi & afs & ifs & _ & _ & _ & _ & Hw & Hp & _ & _ & Hs & _).
  specialize (Hs w ltac:(lia)). replace (p + w)%nat with (length ls - 1)%nat in Hs by lia.
  destruct (i_cls _ _ I _ x X) as [(_ & A & _)|(A & _)]; [congruence|]. rewrite Hx in A. discriminate A.
Qed.
(** The partition: every layer is either incoherent or belongs to exactly one stack, the index
    maps are inverse to one another, neighbouring coherent layers share a stack, and each
    stack runs from one incoherent layer to the next and carries those layers' data. *)
Theorem C45_partition : forall ns ds cs g, inc_group_layers (N := N) (D := D) ns ds cs = Ok g ->
  (forall k, (k < length cs)%nat ->
     (nth_error cs k = Some "i"%string /\ nth_error (g_stack_from_all g) k = Some None /\
      exists m, nth_error (g_inc_from_all g) k = Some (Some m) /\ nth_error (g_all_from_inc g) m = Some k) \/
     (nth_error cs k = Some "c"%string /\ nth_error (g_inc_from_all g) k = Some None /\
      exists j w l, nth_error (g_stack_from_all g) k = Some (Some (j, w)) /\ (1 <= w)%nat /\ (j < g_stack g)%nat /\
                    nth_error (g_all_from_stack g) j = Some l /\ nth_error l w = Some k)) /\
  (forall m, (m < g_inc g)%nat -> exists k, nth_error (g_all_from_inc g) m = Some k /\
     nth_error (g_inc_from_all g) k = Some (Some m)) /\
  (forall k, nth_error cs k = Some "c"%string -> nth_error cs (S k) = Some "c"%string -> exists j w,
     nth_error (g_stack_from_all g) k = Some (Some (j, w)) /\
     nth_error (g_stack_from_all g) (S k) = Some (Some (j, S w))) /\
  length (g_all_from_stack g) = g_stack g /\ length (g_all_from_inc g) = g_inc g.
Proof.
  intros ns ds cs g E. destruct (group_inv ns ds cs g E) as [I O].
  assert (W : well_formed ns ds cs) by (apply C45_accepts; eauto).
  destruct W as (L1 & L2 & _). set (ls := combine (combine ns ds) cs) in *.
  assert (Hm : map ch ls = cs).
  { unfold ls, ch. clear - L1 L2.
    assert (Q : length (combine ns ds) = length cs) by (rewrite combine_length; lia).
    set (u := combine ns ds) in *. clearbody u. clear L1 L2.
    revert u Q. induction cs as [|c l IH]; intros [|x u] Q; try discriminate; [reflexivity|].
    cbn. f_equal. apply IH. now injection Q. }
  assert (Hn : forall k c, nth_error cs k = Some c -> exists x, nth_error ls k = Some x /\ ch x = c).
  { intros k c Hk. rewrite <- Hm, nth_error_map in Hk. destruct (nth_error ls k) as [x|]; [|discriminate].
    exists x. injection Hk as <-. auto. }
  assert (Op := i_open _ _ I). rewrite O in Op. destruct Op as (O1 & O2 & _).
  destruct (i_len _ _ I) as (M1 & M2 & M3 & M4 & M5 & M6).
  split; [|split; [|split; [|split; [exact O1|exact M3]]]].
  - intros k Hk. destruct (nth_error cs k) as [c|] eqn:Ec; [|apply nth_error_None in Ec; lia].
    destruct (Hn k c Ec) as (x & Hx & Hc). subst c.
    destruct (i_cls _ _ I k x Hx) as [(A1 & A2 & A3)|(A1 & A2 & j & w & l & A3 & A4 & A5 & A6)].
    + left. rewrite A1. auto.
    + right. rewrite A1. split; auto. split; auto. exists j, w, l. repeat split; auto.
      rewrite <- O1. apply nth_error_Some. congruence.
  - intros m Hm'. destruct (nth_error (g_all_from_inc g) m) as [k|] eqn:Ek; [|apply nth_error_None in Ek; lia].
    exists k. split; auto. now apply (i_inc _ _ I).
  - intros k Hk Hk'. destruct (Hn _ _ Hk) as (x & Hx & Hcx). destruct (Hn _ _ Hk') as (y & Hy & Hcy).
    exact (i_adj _ _ I k x y Hx Hy Hcx Hcy).
Qed.
Lemma map_nn_slice ns ds cs p L : length ns = length ds -> length ds = length cs ->
  map nn (slice p L (combine (combine ns ds) cs)) = slice p L ns /\
  map dd (slice p L (combine (combine ns ds) cs)) = slice p L ds.
Proof.
  intros L1 L2. unfold slice. rewrite <- !firstn_map, <- !skipn_map.
  assert (Q : map nn (combine (combine ns ds) cs) = ns /\ map dd (combine (combine ns ds) cs) = ds).
  { clear p L. revert ds cs L1 L2. induction ns as [|n ns IH]; intros [|d ds] [|c cs] L1 L2; try discriminate; [auto|].
    injection L1 as L1. injection L2 as L2. destruct (IH ds cs L1 L2) as [Q1 Q2]. cbn.
    split; f_equal; assumption. }
  destruct Q as [-> ->]. auto.
Qed.
Theorem C45_stacks : forall ns ds cs g j, inc_group_layers (N := N) (D := D) ns ds cs = Ok g ->
  (j < g_stack g)%nat -> exists p L mi,
    nth_error (g_all_from_stack g) j = Some (seq p (L + 2)) /\ (1 <= L)%nat /\ (p + L + 2 <= length cs)%nat /\
    nth_error cs p = Some "i"%string /\ nth_error cs (p + L + 1) = Some "i"%string /\
    (forall i, (1 <= i <= L)%nat -> nth_error cs (p + i) = Some "c"%string /\
                                    nth_error (g_stack_from_all g) (p + i) = Some (Some (j, i))) /\
    nth_error (g_inc_from_stack g) j = Some mi /\
    nth_error (g_inc_from_all g) p = Some (Some mi) /\
    nth_error (g_inc_from_all g) (p + L + 1) = Some (Some (S mi)) /\
    (forall m, nth_error (g_stack_from_inc g) m = Some (Some j) <-> m = S mi) /\
    nth_error (g_stack_n g) j = Some (firstn (L + 2) (skipn p ns)) /\
    nth_error (g_stack_d g) j = Some (None :: firstn L (skipn (p + 1) ds) ++ [None]).
Proof.
  intros ns ds cs g j E Hj. destruct (group_inv ns ds cs g E) as [I O].
  assert (W : well_formed ns ds cs) by (apply C45_accepts; eauto). destruct W as (L1 & L2 & _).
  destruct (C45_partition ns ds cs g E) as (P1 & _ & _ & _).
  assert (Hlen : length (combine (combine ns ds) cs) = length cs) by (rewrite !combine_length; lia).
  destruct (i_closed _ _ I j Hj) as [(p & m & L & mi & mo & H1 & H2 & H3 & H4 & H5 & H6 & H7 & H8 & H9 & H10 & H11 & H12)].
  rewrite Hlen in H3. subst m mo.
  destruct (map_nn_slice ns ds cs p (L + 2) L1 L2) as [Q1 _].
  destruct (map_nn_slice ns ds cs (p + 1) L L1 L2) as [_ Q2].
  rewrite Q1 in H11. rewrite Q2 in H12.
  exists p, L, mi. split; [exact H1|]. split; [exact H2|]. split; [exact H3|].
  split. { destruct (P1 p ltac:(lia)) as [(A & _)|(_ & A & _)]; [exact A|congruence]. }
  split. { destruct (P1 (p + L + 1)%nat ltac:(lia)) as [(A & _)|(_ & A & _)]; [exact A|congruence]. }
  split. { intros i Hi. specialize (H10 i Hi). split; [|exact H10].
           destruct (P1 (p + i)%nat ltac:(lia)) as [(_ & A & _)|(A & _)]; [congruence|exact A]. }
  split; [exact H5|]. split; [exact H4|]. split; [exact H7|].
  split; [|split; [exact H11|exact H12]].
  intros m. split; [|intros ->; exact H8].
  intros Hm. destruct (i_sfi _ _ I m j Hm) as (_ & mi' & A1 & A2). congruence.
Qed.
End Grouping.
Example C45_example : well_formed (N := nat) (D := nat) [1; 2; 3; 4; 5; 6]%nat
  [None; Some 10; Some 20; Some 300; Some 5; None]%nat ["i"; "c"; "c"; "i"; "c"; "i"]%string.
Proof.
  repeat split; try discriminate. repeat (apply Forall_cons; [unfold letter; auto|]). constructor.
Qed.

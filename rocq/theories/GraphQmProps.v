(** Property C192 about the data drawn for quantum wells. *)
From Coq Require Import Reals ZArith String List Bool Arith Lra Lia.
From Coquelicot Require Import Coquelicot.
From Verif Require Import Common NumModel InterpModel NpModel PhysConst SchrodModel SchrodProps TmmModel PickModel GraphQmModel DbPlanckProps.
From Coq Require Import List.
From Verif Require SolverProps.
From Verif Require Import SchrodModel.
Import ListNotations.
Open Scope R_scope.
Open Scope list_scope.

(** * The line shape *)
Lemma lorentz_derive c w x : 0 < w -> is_derive (fun x => / PI * atan ((x - c) / (w / 2))) x (lorentz x c w).
Proof.
  intros W. pose proof PI_RGT_0. auto_derive; [lra|]. unfold lorentz.
  assert (0 < 1 + ((x + - c) * / (w * / 2)) ^ 2) by (pose proof (pow2_ge_0 ((x + - c) * / (w * / 2))); lra).
  assert (0 < (x - c) ^ 2 + (5 / 10 * w) ^ 2) by (pose proof (pow2_ge_0 (x - c)); assert (0 < (5 / 10 * w) ^ 2) by (apply pow_lt; lra); lra).
  field. repeat split; try lra; nra.
Qed.
Lemma lorentz_cont c w x : 0 < w -> continuous (fun x => lorentz x c w) x.
Proof.
  intros W. apply (ex_derive_continuous (fun x => lorentz x c w)). unfold lorentz. auto_derive.
  pose proof (pow2_ge_0 (x + - c)). assert (0 < (5 / 10 * w) ^ 2) by (apply pow_lt; lra). nra.
Qed.
(** The line is positive, symmetric, highest at the level and half as high at half of the width
    given; the part of it in an interval is less than one and as close to one as wanted. *)
Theorem C192_line : forall c w, 0 < w ->
  (forall x, 0 < lorentz x c w <= lorentz c c w) /\ (forall d, lorentz (c + d) c w = lorentz (c - d) c w) /\
  lorentz (c + w / 2) c w = lorentz c c w / 2 /\
  (forall a b, a < b -> 0 < RInt (fun x => lorentz x c w) a b < 1) /\
  (forall eps, 0 < eps -> exists M, forall a b, a < c - M -> c + M < b -> 1 - eps < RInt (fun x => lorentz x c w) a b).
Proof.
  intros c w W. pose proof PI_RGT_0 as HP.
  assert (D : forall x, 0 < (x - c) ^ 2 + (5 / 10 * w) ^ 2) by (intros x; pose proof (pow2_ge_0 (x - c)); assert (0 < (5 / 10 * w) ^ 2) by (apply pow_lt; lra); lra).
  assert (I0 : forall a b, RInt (fun x => lorentz x c w) a b = / PI * atan ((b - c) / (w / 2)) - / PI * atan ((a - c) / (w / 2))).
  { intros a b. apply is_RInt_unique. apply (is_RInt_derive (fun x => / PI * atan ((x - c) / (w / 2)))).
    - intros x _. now apply lorentz_derive.
    - intros x _. now apply lorentz_cont. }
  assert (K : 0 < 1 / PI * (5 / 10 * w)) by (apply Rmult_lt_0_compat; [apply Rdiv_lt_0_compat; lra|lra]).
  split; [|split; [|split; [|split]]].
  - intros x. unfold lorentz. split; [apply Rdiv_lt_0_compat; [exact K|apply D]|].
    apply Rmult_le_compat_l; [lra|]. apply Rinv_le_contravar; [apply D|]. pose proof (pow2_ge_0 (x - c)). replace ((c - c) ^ 2) with 0 by ring. lra.
  - intros d. unfold lorentz. f_equal. f_equal. ring.
  - unfold lorentz. field. split; [lra|]. split; nra.
  - intros a b Hab. rewrite I0, <- Rmult_minus_distr_l. pose proof (atan_bound ((b - c) / (w / 2))). pose proof (atan_bound ((a - c) / (w / 2))).
    assert (atan ((a - c) / (w / 2)) < atan ((b - c) / (w / 2))) by (apply atan_increasing; apply Rmult_lt_compat_r; [apply Rinv_0_lt_compat; lra|lra]).
    split; [apply Rmult_lt_0_compat; [now apply Rinv_0_lt_compat|lra]|].
    apply (Rmult_lt_reg_l PI); [exact HP|]. rewrite <- Rmult_assoc, Rinv_r by lra. lra.
  - intros eps He. set (t := Rmax 0 (PI / 2 - eps * PI / 4)).
    assert (T : 0 <= t < PI / 2) by (unfold t; split; [apply Rmax_l|apply Rmax_lub_lt; nra]).
    exists (w / 2 * tan t). intros a b Ha Hb. rewrite I0, <- Rmult_minus_distr_l.
    assert (A1 : tan t < (b - c) / (w / 2)) by (apply (Rmult_lt_reg_l (w / 2)); [lra|]; field_simplify; lra).
    assert (A2 : (a - c) / (w / 2) < - tan t) by (apply (Rmult_lt_reg_l (w / 2)); [lra|]; field_simplify; lra).
    apply atan_increasing in A1, A2. rewrite atan_opp in A2. rewrite atan_tan in A1, A2 by lra.
    assert (PI / 2 - eps * PI / 4 <= t) by apply Rmax_r.
    apply (Rmult_lt_reg_l PI); [exact HP|]. rewrite <- Rmult_assoc, Rinv_r by lra. nra.
Qed.
(** So the argument called half width is the full width: at a half width it is a fifth. *)
Theorem C192_width_refuted : exists c hwhm, 0 < hwhm /\ lorentz (c + hwhm) c hwhm = lorentz c c hwhm / 5.
Proof. exists 0, 1. split; [lra|]. unfold lorentz. pose proof PI_RGT_0. field. lra. Qed.

(** * Masses and densities *)
Lemma combine_nth_lt {A B} (l : list A) (m : list B) i a b : (i < length l)%nat -> (i < length m)%nat ->
  nth i (combine l m) (a, b) = (nth i l a, nth i m b).
Proof. revert m i. induction l as [|x l IH]; intros [|y m] [|i] H1 H2; cbn in *; try lia; [reflexivity|]. apply IH; lia. Qed.
(** The mass of a level whose density adds up to one is between the masses of the structure. *)
Theorem C192_mass : forall x psi m lo hi i, nondecreasing x -> (i < length psi)%nat -> length (nth i psi []) = length x -> length m = length x ->
  np_trapz (map (fun v => v ^ 2) (nth i psi [])) x = 1 -> (forall v, In v m -> lo <= v <= hi) ->
  lo <= at_ (in_plane_masses x psi m) i <= hi.
Proof.
  intros x psi m lo hi i X Hi L1 L2 N H. set (ps := nth i psi []) in *.
  set (F := fun ps => np_trapz (map (fun p : R * R => fst p ^ 2 * snd p) (combine ps m)) x).
  assert (E : at_ (in_plane_masses x psi m) i = F ps).
  { unfold in_plane_masses. fold F. rewrite (nth_indep _ 0 (F [])) by now rewrite map_length. apply (map_nth F). }
  rewrite E. unfold F.
  assert (S1 : forall k, np_trapz (map (fun p : R * R => k * fst p ^ 2) (combine ps m)) x = k).
  { intros k. rewrite (trapz_map_scale k (fun p : R * R => fst p ^ 2)).
    replace (map (fun p : R * R => fst p ^ 2) (combine ps m)) with (map (fun v => v ^ 2) ps); [rewrite N; ring|].
    rewrite <- (map_map fst (fun v => v ^ 2)). f_equal. clear - L1 L2. rewrite <- L2 in L1. clear L2. clearbody ps. revert m L1.
    induction ps as [|a ps IH]; intros [|b m] L; cbn in *; try discriminate L; [reflexivity|]. f_equal. apply IH. lia. }
  assert (LC : length (combine ps m) = length x) by (rewrite combine_length; lia).
  split.
  - rewrite <- (S1 lo). apply trapz_map_le; [exact LC|exact X|]. intros [a b] Hp. cbn [fst snd]. apply in_combine_r in Hp. pose proof (H b Hp). pose proof (pow2_ge_0 a). nra.
  - rewrite <- (S1 hi). apply trapz_map_le; [exact LC|exact X|]. intros [a b] Hp. cbn [fst snd]. apply in_combine_r in Hp. pose proof (H b Hp). pose proof (pow2_ge_0 a). nra.
Qed.
Example C192_mass_ex : np_trapz (map (fun v => v ^ 2) (nth 0 [[1; 1]] [])) [0; 1] = 1 /\ at_ (in_plane_masses [0; 1] [[1; 1]] [2; 4]) 0 = 3.
Proof. cbn. split; lra. Qed.

(** The density of a band as a sum over its levels. *)
Fixpoint sum_to (n : nat) (f : nat -> R) : R := match n with O => 0 | S n => sum_to n f + f n end.
Lemma fold_sum f n : fold_left (fun acc i => acc + f i) (seq 0 n) 0 = sum_to n f.
Proof. induction n as [|n IH]; [reflexivity|]. rewrite seq_S, fold_left_app, IH. reflexivity. Qed.
Definition band_spec (x E : list R) (psi : list (list R)) (m : list R) (broad e : R) (k : nat) : R :=
  sum_to (length E) (fun i => np_trapz (map (fun p => fst p ^ 2 * snd p) (combine (nth i psi []) m)) x / PI / hbar ^ 2 *
    lorentz e (at_ E i) (broad * q) * at_ (nth i psi []) k ^ 2).
Lemma band_ok x E psi m broad : (length E <= length psi)%nat ->
  exists f, band_density x E psi m broad = Ok f /\ forall e k, f e k = band_spec x E psi m broad e k.
Proof.
  intros L. unfold band_density. destruct (Nat.ltb_spec (length psi) (length E)); [lia|]. eexists. split; [reflexivity|].
  intros e k. cbv beta zeta. rewrite fold_sum. unfold band_spec.
  assert (G : forall n, (n <= length psi)%nat -> forall f g, (forall i, (i < length psi)%nat -> f i = g i) -> sum_to n f = sum_to n g).
  { clear. induction n as [|n IH]; intros Hn f g Hf; [reflexivity|]. cbn. rewrite (IH ltac:(lia) f g Hf), Hf by lia. reflexivity. }
  apply G; [exact L|]. intros i Hi.
  set (F := fun ps => np_trapz (map (fun p : R * R => fst p ^ 2 * snd p) (combine ps m)) x).
  change (at_ (in_plane_masses x psi m) i) with (nth i (map F psi) 0). rewrite (nth_indep _ 0 (F [])) by now rewrite map_length. rewrite (map_nth F). unfold F. ring.
Qed.
Lemma nth_tab energy x f j k : (j < length energy)%nat -> (k < length x)%nat -> at_ (nth j (tabulate energy x f) []) k = f (at_ energy j) k.
Proof.
  intros Hj Hk. unfold tabulate. set (F := fun e => map (f e) (seq 0 (length x))).
  rewrite (nth_indep _ [] (F 0)) by now rewrite map_length. rewrite (map_nth F). unfold F.
  rewrite (nth_indep _ 0 (f (at_ energy j) 0%nat)) by now rewrite map_length, seq_length. rewrite (map_nth (f (at_ energy j))). now rewrite seq_nth.
Qed.
(** Energies from the margin below the lowest to that above the highest level in equal steps, and
    at each energy and position the sum over the levels of the density of states in the plane
    times line shape times probability. *)
Definition covers (lo hi step : R) (energy : list R) : Prop :=
  (forall j, (j < length energy)%nat -> at_ energy j = lo + INR j * step /\ at_ energy j < hi) /\ hi <= lo + INR (length energy) * step.
Lemma arange_covers lo hi s : 0 < s -> exists l, arange lo hi s = Ok l /\ covers lo hi s l.
Proof.
  intros Hs. destruct (SolverProps.arange_ok lo (hi - lo) s Hs) as (l & E & H1 & H2). replace (lo + (hi - lo)) with hi in * by ring.
  exists l. split; [exact E|]. split; [|lra]. intros j Hj. apply (H1 j). now apply nth_error_nth'.
Qed.
Theorem C192_electrons : forall x E psi m step margin broad, E <> [] -> (length E <= length psi)%nat -> 0 < step ->
  exists energy D, LDOS1D_e x E psi m step margin broad = Ok (energy, D) /\
    covers (list_min E - margin * q) (list_max E + margin * q) (step * q) energy /\
    forall j k, (j < length energy)%nat -> (k < length x)%nat -> at_ (nth j D []) k = band_spec x E psi m broad (at_ energy j) k.
Proof.
  intros x E psi m step margin broad N L Hs. destruct (band_ok x E psi m broad L) as (f & F1 & F2).
  destruct (arange_covers (list_min E - margin * q) (list_max E + margin * q) (step * q)) as (l & A1 & A2).
  { apply Rmult_lt_0_compat; [exact Hs|apply q_pos]. }
  exists l, (tabulate l x f). split; [|split; [exact A2|]].
  - unfold LDOS1D_e. destruct E as [|e0 E]; [easy|]. rewrite A1. cbn [bindR]. rewrite F1. reflexivity.
  - intros j k Hj Hk. rewrite nth_tab by assumption. apply F2.
Qed.
Theorem C192_holes : forall x E1 E2 psi1 psi2 m1 m2 step margin broad, E1 <> [] -> E2 <> [] ->
  (length E1 <= length psi1)%nat -> (length E2 <= length psi2)%nat -> 0 < step ->
  exists energy D, LDOS1D_h x E1 E2 psi1 psi2 m1 m2 step margin broad = Ok (energy, D) /\
    covers (Rmin (list_min E1) (list_min E2) - margin * q) (Rmax (list_max E1) (list_max E2) + margin * q) (step * q) energy /\
    forall j k, (j < length energy)%nat -> (k < length x)%nat ->
      at_ (nth j D []) k = band_spec x E1 psi1 m1 broad (at_ energy j) k + band_spec x E2 psi2 m2 broad (at_ energy j) k.
Proof.
  intros x E1 E2 psi1 psi2 m1 m2 step margin broad N1 N2 L1 L2 Hs.
  destruct (band_ok x E1 psi1 m1 broad L1) as (f & F1 & F2). destruct (band_ok x E2 psi2 m2 broad L2) as (g & G1 & G2).
  destruct (arange_covers (Rmin (list_min E1) (list_min E2) - margin * q) (Rmax (list_max E1) (list_max E2) + margin * q) (step * q)) as (l & A1 & A2).
  { apply Rmult_lt_0_compat; [exact Hs|apply q_pos]. }
  exists l, (tabulate l x (fun e k => f e k + g e k)). split; [|split; [exact A2|]].
  - unfold LDOS1D_h. destruct E1 as [|a E1]; [easy|]. destruct E2 as [|b E2]; [easy|]. rewrite A1. cbn [bindR]. rewrite F1. cbn [bindR]. rewrite G1. reflexivity.
  - intros j k Hj Hk. rewrite nth_tab by assumption. now rewrite F2, G2.
Qed.
(** No density is negative, for increasing positions and masses that are not. *)
Theorem C192_density_nonneg : forall x E psi m broad e k, nondecreasing x -> 0 < broad -> (forall v, In v m -> 0 <= v) ->
  length m = length x -> (forall i, (i < length E)%nat -> length (nth i psi []) = length x) ->
  0 <= band_spec x E psi m broad e k.
Proof.
  intros x E psi m broad e k X B M Lm Lp. unfold band_spec.
  assert (G : forall n, (n <= length E)%nat -> 0 <= sum_to n (fun i => np_trapz (map (fun p => fst p ^ 2 * snd p) (combine (nth i psi []) m)) x / PI / hbar ^ 2 *
    lorentz e (at_ E i) (broad * q) * at_ (nth i psi []) k ^ 2)); [|now apply G].
  induction n as [|n IH]; intros Hn; cbn [sum_to]; [lra|]. apply Rplus_le_le_0_compat; [apply IH; lia|].
  apply Rmult_le_pos; [|apply pow2_ge_0]. apply Rmult_le_pos.
  - unfold Rdiv. repeat apply Rmult_le_pos.
    + apply np_trapz_nonneg; [rewrite map_length, combine_length, Lp, Lm by lia; lia| |exact X].
      intros v Hv. apply in_map_iff in Hv. destruct Hv as ([a b] & <- & Hp). cbn [fst snd]. apply in_combine_r in Hp. apply Rmult_le_pos; [apply pow2_ge_0|now apply M].
    + pose proof PI_RGT_0. apply Rlt_le, Rinv_0_lt_compat. lra.
    + apply Rlt_le, Rinv_0_lt_compat, pow_lt, hbar_pos.
  - assert (W : 0 < broad * q) by (apply Rmult_lt_0_compat; [exact B|apply q_pos]).
    destruct (C192_line (at_ E n) (broad * q) W) as (H & _). apply Rlt_le, H.
Qed.
Example C192_electrons_ex : exists energy D, LDOS1D_e [0; 1; 2] [q] [[0; 1; 0]] [2; 4; 2] 1 1 1 = Ok (energy, D) /\ (2 <= length energy)%nat.
Proof.
  destruct (C192_electrons [0; 1; 2] [q] [[0; 1; 0]] [2; 4; 2] 1 1 1) as (en & D & H1 & [H2 H3] & _); [discriminate|cbn; lia|lra|].
  exists en, D. split; [exact H1|]. pose proof q_pos. cbn [list_min list_max fold_left] in H3.
  destruct (Nat.lt_ge_cases (length en) 2) as [C|C]; [|exact C]. assert (INR (length en) <= 1) by (apply (le_INR _ 1); lia). nra.
Qed.

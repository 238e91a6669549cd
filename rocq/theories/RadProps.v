(** Properties C140 and C141: radiative coupling of the junctions of a cell. *)
From Coq Require Import Reals List Bool Lia Lra Psatz Arith.
From Verif Require Import Common PhysConst InterpModel NpModel DetBalModel DetBalProps IVModel IVProps SchrodProps RadModel.
From Coq Require Import List.
Import ListNotations.
Open Scope R_scope.
Open Scope list_scope.

(** * C140: photons of a junction *)

(** The angles of the integral over the hemisphere: all but the two ends, and the last one,
    which counts half. *)
Definition angles (steps : nat) : list R := map (fun i => / 1000 + (1 - / 1000) * INR i / INR (steps - 1)) (seq 1 (steps - 2)).
(** The light that leaves through the back under the cosine t and passes something that lets
    the fraction Btr through at normal incidence. *)
Definition ray (r Bem Btr t : R) : R := (1 + internal_R r t * rpow Bem (1 / t)) * (1 - rpow Bem (1 / t)) * rpow Btr (1 / t) * t.
Definition passed (steps : nat) (r Bem Btr : R) : R :=
  2 * PI * (ray r Bem Btr 1 / 2 + sum (map (ray r Bem Btr) (angles steps))) / (INR steps + 1).

Lemma fold_sum (g : R -> R) l : forall a, fold_left (fun acc t => acc + g t) l a = a + sum (map g l).
Proof. induction l as [|t l IH]; intros a; cbn [fold_left map]; [cbn; ring|]. rewrite IH. unfold sum. cbn [fold_right]. ring. Qed.
Lemma sum_map_ext (f g : R -> R) l : (forall t, In t l -> f t = g t) -> sum (map f l) = sum (map g l).
Proof. intros H. f_equal. now apply map_ext_in. Qed.
Lemma sum_minus (f g : R -> R) l : sum (map (fun t => f t - g t) l) = sum (map f l) - sum (map g l).
Proof. unfold sum. induction l as [|t l IH]; cbn [map fold_right]; [ring|rewrite IH; ring]. Qed.
Lemma sum_plus (f g : R -> R) l : sum (map (fun t => f t + g t) l) = sum (map f l) + sum (map g l).
Proof. unfold sum. induction l as [|t l IH]; cbn [map fold_right]; [ring|rewrite IH; ring]. Qed.
Lemma sum_nonneg (f : R -> R) l : (forall t, In t l -> 0 <= f t) -> 0 <= sum (map f l).
Proof. intros H. unfold sum. induction l as [|t l IH]; cbn [map fold_right]; [lra|]. assert (0 <= f t) by (apply H; now left). assert (0 <= fold_right Rplus 0 (map f l)) by (apply IH; intros; apply H; now right). lra. Qed.
Lemma rpow_mult a b e : 0 <= a -> 0 <= b -> rpow (a * b) e = rpow a e * rpow b e.
Proof.
  intros Ha Hb. unfold rpow. destruct (Req_EM_T a 0) as [-> |Na]; [destruct (Req_EM_T (0 * b) 0); [ring|lra]|].
  destruct (Req_EM_T b 0) as [-> |Nb]; [destruct (Req_EM_T (a * 0) 0); [ring|lra]|].
  destruct (Req_EM_T (a * b) 0) as [E|_]; [apply Rmult_integral in E; lra|]. unfold Rpower. rewrite ln_mult by lra. rewrite <- exp_plus. f_equal. ring.
Qed.
Lemma rpow_one a : 0 <= a -> rpow a (1 / 1) = a.
Proof. intros H. unfold rpow. destruct (Req_EM_T a 0) as [-> |N]; [reflexivity|]. replace (1 / 1) with 1 by field. apply Rpower_1. lra. Qed.
Lemma rpow_base1 e : rpow 1 e = 1.
Proof. unfold rpow. destruct (Req_EM_T 1 0); [lra|]. unfold Rpower. rewrite ln_1, Rmult_0_r. apply exp_0. Qed.
Lemma angles_spec steps : (2 <= steps)%nat -> map (fun i => nth i (linspace (/ 1000) 1 steps) 0) (seq 1 (steps - 2)) = angles steps /\ nth (steps - 1) (linspace (/ 1000) 1 steps) 0 = 1 /\ (forall t, In t (angles steps) -> 0 < t).
Proof.
  intros Hs. assert (P : 0 < INR (steps - 1)) by (apply lt_0_INR; lia). split; [|split].
  - apply map_ext_in. intros i Hi. apply in_seq in Hi. apply linspace_nth. lia.
  - rewrite linspace_nth by lia. field. lra.
  - intros t Ht. apply in_map_iff in Ht as (i & <- & Hi). pose proof (pos_INR i). assert (0 <= (1 - / 1000) * INR i / INR (steps - 1)) by (apply Rmult_le_pos; [apply Rmult_le_pos; lra|left; now apply Rinv_0_lt_compat]). lra.
Qed.
(** What is absorbed is what arrives less what goes on. *)
Lemma coupled_A_spec steps r Bem Bab Btr : (2 <= steps)%nat -> 0 <= Bem -> 0 <= Bab -> 0 <= Btr ->
  coupled_A steps r Bem Bab Btr = passed steps r Bem Btr - passed steps r Bem (Btr * Bab).
Proof.
  intros Hs He Ha Ht. unfold coupled_A, passed. destruct (angles_spec steps Hs) as (-> & -> & _). cbv zeta.
  rewrite (fold_sum (fun t => (1 + internal_R r t * rpow Bem (1 / t)) * (1 - rpow Bem (1 / t)) * (1 - rpow Bab (1 / t)) * rpow Btr (1 / t) * t)).
  rewrite (sum_map_ext _ (fun t => ray r Bem Btr t - ray r Bem (Btr * Bab) t)).
  2:{ intros t _. unfold ray. rewrite rpow_mult by assumption. ring. }
  rewrite sum_minus. assert (R1 : forall B, 0 <= B -> ray r Bem B 1 = (1 + internal_R r 1 * Bem) * (1 - Bem) * B) by (intros B HB; unfold ray; rewrite !rpow_one by assumption; ring).
  rewrite (R1 Btr), (R1 (Btr * Bab)) by (try assumption; now apply Rmult_le_pos). pose proof (pos_INR steps). field. lra.
Qed.
Lemma passed_nonneg steps r Bem Btr : (2 <= steps)%nat -> 0 <= r -> 0 <= Bem <= 1 -> 0 <= Btr <= 1 -> 0 <= passed steps r Bem Btr.
Proof.
  intros Hs Hr He Ht. destruct (angles_spec steps Hs) as (_ & _ & P).
  assert (G : forall t, 0 < t -> 0 <= ray r Bem Btr t).
  { intros t Pt. assert (0 < 1 / t) by (apply Rdiv_lt_0_compat; lra). pose proof (rpow_range Bem (1 / t) He ltac:(assumption)). pose proof (rpow_range Btr (1 / t) Ht ltac:(assumption)). pose proof (internal_R_range r t Hr Pt).
    unfold ray. assert (0 <= internal_R r t * rpow Bem (1 / t)) by (apply Rmult_le_pos; lra). apply Rmult_le_pos; [apply Rmult_le_pos; [apply Rmult_le_pos|]|]; lra. }
  unfold passed. pose proof PI_RGT_0. pose proof (pos_INR steps). apply Rmult_le_pos; [|left; apply Rinv_0_lt_compat; lra]. apply Rmult_le_pos; [lra|].
  assert (0 <= ray r Bem Btr 1) by (apply G; lra). assert (0 <= sum (map (ray r Bem Btr) (angles steps))) by (apply sum_nonneg; intros t It; apply G, P, It). lra.
Qed.
Lemma passed_le steps r Bem Btr Bab : (2 <= steps)%nat -> 0 <= r -> 0 <= Bem <= 1 -> 0 <= Btr <= 1 -> 0 <= Bab <= 1 -> passed steps r Bem (Btr * Bab) <= passed steps r Bem Btr.
Proof.
  intros Hs Hr He Ht Ha. destruct (angles_spec steps Hs) as (_ & _ & P).
  assert (G : forall t, 0 < t -> ray r Bem (Btr * Bab) t <= ray r Bem Btr t).
  { intros t Pt. assert (0 < 1 / t) by (apply Rdiv_lt_0_compat; lra). pose proof (rpow_range Bem (1 / t) He ltac:(assumption)). pose proof (rpow_range Btr (1 / t) Ht ltac:(assumption)). pose proof (rpow_range Bab (1 / t) Ha ltac:(assumption)). pose proof (internal_R_range r t Hr Pt).
    unfold ray. rewrite rpow_mult by lra. assert (0 <= internal_R r t * rpow Bem (1 / t)) by (apply Rmult_le_pos; lra).
    apply Rmult_le_compat_r; [lra|]. apply Rmult_le_compat_l; [apply Rmult_le_pos; lra|]. rewrite <- (Rmult_1_r (rpow Btr (1 / t))) at 2. apply Rmult_le_compat_l; lra. }
  unfold passed, Rdiv. pose proof PI_RGT_0. pose proof (pos_INR steps). apply Rmult_le_compat_r; [left; apply Rinv_0_lt_compat; lra|]. apply Rmult_le_compat_l; [lra|].
  apply Rplus_le_compat; [apply Rmult_le_compat_r; [lra|apply G; lra]|]. apply sum_le. intros t It. apply G, P, It.
Qed.

(** Emission is linear and monotone. *)
Lemma trapz_minus : forall (f g : R -> R) x l, np_trapz (map (fun t => f t - g t) l) x = np_trapz (map f l) x - np_trapz (map g l) x.
Proof.
  intros f g x l. revert x. induction l as [|a [|b l] IH]; intros [|x0 [|x1 x]]; try (cbn; ring). specialize (IH (x1 :: x)). cbn [map] in *. rewrite !np_trapz_cons, IH. field.
Qed.
Definition weight (n T l : R) : R := 2 * q * n ^ 2 * c * (1 / l ^ 4) * exp (- (h * c / l) / (kb * T)).
Lemma emission_spec n (A : R -> R) wl T : emission n (map A wl) wl T = np_trapz (map (fun l => weight n T l * A l) wl) wl.
Proof.
  unfold emission. f_equal. assert (E : combine (map A wl) wl = map (fun l => (A l, l)) wl) by (induction wl as [|l wl IH]; cbn; [reflexivity|now rewrite IH]).
  rewrite E, map_map. apply map_ext. intros l. cbn [fst snd]. unfold weight, Rdiv. ring.
Qed.
Lemma emission_minus n (A B : R -> R) wl T : emission n (map (fun l => A l - B l) wl) wl T = emission n (map A wl) wl T - emission n (map B wl) wl T.
Proof. rewrite !emission_spec, <- trapz_minus. f_equal. apply map_ext. intros l. ring. Qed.
Lemma weight_nonneg n T l : 0 < l -> 0 <= weight n T l.
Proof.
  intros P. pose proof q_pos. pose proof c_pos. unfold weight. assert (0 <= n ^ 2) by apply pow2_ge_0. assert (0 < l ^ 4) by (apply pow_lt; exact P).
  apply Rmult_le_pos; [|left; apply exp_pos]. apply Rmult_le_pos; [|left; apply Rdiv_lt_0_compat; lra]. apply Rmult_le_pos; [apply Rmult_le_pos; [lra|assumption]|lra].
Qed.
Lemma emission_le n (A B : R -> R) wl T : nondecreasing wl -> Forall (fun l => 0 < l) wl -> (forall l, In l wl -> A l <= B l) -> emission n (map A wl) wl T <= emission n (map B wl) wl T.
Proof.
  intros Nd P H. rewrite !emission_spec. apply np_trapz_le; try (now rewrite map_length); [|exact Nd]. intros i Li.
  rewrite !(map_nth' _ wl i Li). apply Rmult_le_compat_l; [apply weight_nonneg; rewrite Forall_forall in P; apply P; now apply nth_In|apply H; now apply nth_In].
Qed.
Lemma emission_nonneg n (A : R -> R) wl T : nondecreasing wl -> Forall (fun l => 0 < l) wl -> (forall l, In l wl -> 0 <= A l) -> 0 <= emission n (map A wl) wl T.
Proof.
  intros Nd P H. rewrite emission_spec. apply np_trapz_nonneg; [now rewrite map_length| |exact Nd]. intros v Iv. apply in_map_iff in Iv as (l & <- & Il). apply Rmult_le_pos; [|now apply H]. apply weight_nonneg. rewrite Forall_forall in P. now apply P.
Qed.
Lemma emission_ext n (A B : R -> R) wl T : (forall l, In l wl -> A l = B l) -> emission n (map A wl) wl T = emission n (map B wl) wl T.
Proof. intros H. f_equal. now apply map_ext_in. Qed.

(** What all the junctions below let through. *)
Definition through (below : list (R -> R)) (l : R) : R := fold_right (fun a b => (1 - a l) * b) 1 below.
Definition fraction (a : R -> R) (wl : list R) : Prop := forall l, In l wl -> 0 <= a l <= 1.
Lemma couplings_balance steps n T wl refl aem below : (2 <= steps)%nat -> fraction aem wl -> Forall (fun a => fraction a wl) below ->
  forall Btr, fraction Btr wl ->
  sum (couplings steps n T wl refl aem Btr below) =
  emission n (map (fun l => passed steps (refl l) (1 - aem l) (Btr l)) wl) wl T
  - emission n (map (fun l => passed steps (refl l) (1 - aem l) (Btr l * through below l)) wl) wl T.
Proof.
  intros Hs Fe Fb. induction below as [|a below IH]; intros Btr Ft.
  - cbn [couplings sum fold_right]. rewrite (emission_ext n (fun l => passed steps (refl l) (1 - aem l) (Btr l * through [] l)) (fun l => passed steps (refl l) (1 - aem l) (Btr l))); [unfold sum; cbn; ring|].
    intros l _. unfold through. cbn [fold_right]. now rewrite Rmult_1_r.
  - pose proof (Forall_inv Fb) as Fa. cbv beta in Fa. cbn [couplings]. unfold sum. cbn [fold_right]. fold (sum (couplings steps n T wl refl aem (fun l => Btr l * (1 - a l)) below)).
    rewrite (IH (Forall_inv_tail Fb)).
    2:{ intros l Il. specialize (Fa l Il). specialize (Ft l Il). split; [apply Rmult_le_pos; lra|]. rewrite <- (Rmult_1_r 1). apply Rmult_le_compat; lra. }
    rewrite (emission_ext n (fun l => coupled_A steps (refl l) (1 - aem l) (1 - a l) (Btr l)) (fun l => passed steps (refl l) (1 - aem l) (Btr l) - passed steps (refl l) (1 - aem l) (Btr l * (1 - a l)))).
    2:{ intros l Il. specialize (Fa l Il). specialize (Ft l Il). specialize (Fe l Il). apply coupled_A_spec; [exact Hs|lra|lra|lra]. }
    rewrite (emission_ext n (fun l => passed steps (refl l) (1 - aem l) (Btr l * through (a :: below) l)) (fun l => passed steps (refl l) (1 - aem l) (Btr l * (1 - a l) * through below l))).
    2:{ intros l _. unfold through. cbn [fold_right]. f_equal. ring. }
    rewrite emission_minus. ring.
Qed.
Lemma couplings_nonneg steps n T wl refl aem below : (2 <= steps)%nat -> nondecreasing wl -> Forall (fun l => 0 < l) wl -> (forall l, In l wl -> 0 <= refl l) -> fraction aem wl -> Forall (fun a => fraction a wl) below ->
  forall Btr, fraction Btr wl -> Forall (fun x => 0 <= x) (couplings steps n T wl refl aem Btr below).
Proof.
  intros Hs Nd P Hr Fe Fb. induction below as [|a below IH]; intros Btr Ft; cbn [couplings]; [constructor|]. pose proof (Forall_inv Fb) as Fa. cbv beta in Fa. constructor.
  - apply emission_nonneg; try assumption. intros l Il. specialize (Fa l Il). specialize (Ft l Il). specialize (Fe l Il). rewrite coupled_A_spec by (try exact Hs; lra).
    pose proof (passed_le steps (refl l) (1 - aem l) (Btr l) (1 - a l) Hs (Hr l Il) ltac:(lra) ltac:(lra) ltac:(lra)). lra.
  - apply IH; [exact (Forall_inv_tail Fb)|]. intros l Il. specialize (Fa l Il). specialize (Ft l Il). split; [apply Rmult_le_pos; lra|]. rewrite <- (Rmult_1_r 1). apply Rmult_le_compat; lra.
Qed.
Lemma through_range below wl : Forall (fun a => fraction a wl) below -> fraction (through below) wl.
Proof.
  intros F l Il. unfold through. induction below as [|a below IH]; cbn [fold_right]; [lra|]. pose proof (Forall_inv F l Il) as Fa. cbv beta in Fa. specialize (IH (Forall_inv_tail F)).
  split; [apply Rmult_le_pos; lra|]. apply Rle_trans with (1 * 1); [apply Rmult_le_compat; lra|lra].
Qed.
(** The emission through the back is part of the emission of the junction, which detailed
    balance computes. *)
Lemma back_le_all steps r a : (2 <= steps)%nat -> 0 <= r -> 0 <= a <= 1 -> passed steps r (1 - a) 1 <= surface_integral steps r a.
Proof.
  intros Hs Hr Ha. unfold surface_integral, passed. destruct (angles_spec steps Hs) as (E1 & E2 & P). cbv zeta. rewrite E1, E2. pose proof PI_RGT_0. pose proof (pos_INR steps).
  rewrite (fold_sum (fun t => (1 + internal_R r t * rpow (1 - a) (1 / t)) * (1 - rpow (1 - a) (1 / t)) * t)). rewrite (fold_sum (fun t => (1 - internal_R r t) * (1 - rpow (1 - a) (1 / t)) * t)).
  rewrite (sum_map_ext (ray r (1 - a) 1) (fun t => (1 + internal_R r t * rpow (1 - a) (1 / t)) * (1 - rpow (1 - a) (1 / t)) * t)) by (intros t _; unfold ray; rewrite rpow_base1; ring).
  unfold ray. rewrite rpow_base1, rpow_one by lra.
  assert (I1 : 0 < / (INR steps + 1)) by (apply Rinv_0_lt_compat; lra).
  assert (S2 : 0 <= sum (map (fun t => (1 - internal_R r t) * (1 - rpow (1 - a) (1 / t)) * t) (angles steps))).
  { apply sum_nonneg. intros t It. pose proof (P t It) as Pt. assert (0 < 1 / t) by (apply Rdiv_lt_0_compat; lra). pose proof (rpow_range (1 - a) (1 / t) ltac:(lra) ltac:(assumption)). pose proof (internal_R_range r t Hr Pt). apply Rmult_le_pos; [apply Rmult_le_pos; lra|lra]. }
  pose proof (internal_R_range r 1 Hr ltac:(lra)) as R1. assert (0 <= (1 - internal_R r 1) * a) by (apply Rmult_le_pos; lra).
  set (S1 := sum (map (fun t => (1 + internal_R r t * rpow (1 - a) (1 / t)) * (1 - rpow (1 - a) (1 / t)) * t) (angles steps))) in *.
  set (S3 := sum (map (fun t => (1 - internal_R r t) * (1 - rpow (1 - a) (1 / t)) * t) (angles steps))) in *. unfold Rdiv. rewrite Rmult_assoc. apply Rmult_le_compat_l; [lra|]. rewrite <- Rmult_plus_distr_r. apply Rmult_le_compat_r; [lra|]. lra.
Qed.

(** C140: photons of a junction are neither lost nor made on their way down.  The currents
    of the junctions below are non-negative; together with what passes all of them they are
    the emission through the back, which is part of the emission that detailed balance gives
    the junction (its j01). *)
Theorem C140_balance : forall steps n T wl refl aem below,
  (2 <= steps)%nat -> nondecreasing wl -> Forall (fun l => 0 < l) wl -> (forall l, In l wl -> 0 <= refl l) ->
  fraction aem wl -> Forall (fun a => fraction a wl) below ->
  let J := couplings_of steps n T wl refl aem below in
  length J = length below /\ Forall (fun x => 0 <= x) J /\
  sum J + emission n (map (fun l => passed steps (refl l) (1 - aem l) (through below l)) wl) wl T
  = emission n (map (fun l => passed steps (refl l) (1 - aem l) 1) wl) wl T /\
  sum J <= emission n (map (fun l => surface_integral steps (refl l) (aem l)) wl) wl T.
Proof.
  intros steps n T wl refl aem below Hs Nd P Hr Fe Fb J. assert (F1 : fraction (fun _ => 1) wl) by (intros l _; lra).
  assert (B : sum J + emission n (map (fun l => passed steps (refl l) (1 - aem l) (through below l)) wl) wl T = emission n (map (fun l => passed steps (refl l) (1 - aem l) 1) wl) wl T).
  { unfold J, couplings_of. rewrite couplings_balance by assumption.
    rewrite (emission_ext n (fun l => passed steps (refl l) (1 - aem l) (1 * through below l)) (fun l => passed steps (refl l) (1 - aem l) (through below l))) by (intros l _; now rewrite Rmult_1_l). ring. }
  split; [|split; [|split; [exact B|]]].
  - unfold J, couplings_of. generalize (fun _ : R => 1). clear. induction below as [|a below IH]; intros B; cbn [couplings length]; [reflexivity|now rewrite IH].
  - apply couplings_nonneg; assumption.
  - apply Rle_trans with (emission n (map (fun l => passed steps (refl l) (1 - aem l) 1) wl) wl T).
    + assert (0 <= emission n (map (fun l => passed steps (refl l) (1 - aem l) (through below l)) wl) wl T); [|lra]. apply emission_nonneg; try assumption. intros l Il. specialize (Fe l Il). apply passed_nonneg; [exact Hs|now apply Hr|lra|now apply (through_range below wl)].
    + apply emission_le; try assumption. intros l Il. apply back_le_all; [exact Hs|now apply Hr|now apply Fe].
Qed.
(** Nothing reaches the junctions below an opaque one, and a junction that absorbs nothing
    neither emits nor receives. *)
Theorem C140_blocked : forall steps n T wl refl aem above a below,
  (2 <= steps)%nat -> nondecreasing wl -> Forall (fun l => 0 < l) wl -> (forall l, In l wl -> 0 <= refl l) ->
  fraction aem wl -> Forall (fun a => fraction a wl) (above ++ a :: below) ->
  let J := couplings_of steps n T wl refl aem (above ++ a :: below) in
  ((forall l, In l wl -> a l = 1) -> forall k, (length above < k < length J)%nat -> nth k J 0 = 0) /\
  ((forall l, In l wl -> a l = 0) -> nth (length above) J 0 = 0) /\
  ((forall l, In l wl -> aem l = 0) -> forall k, nth k J 0 = 0).
Proof.
  intros steps n T wl refl aem above a below Hs Nd P Hr Fe Fb J.
  assert (Z0 : forall (A : R -> R), (forall l, In l wl -> A l = 0) -> emission n (map A wl) wl T = 0).
  { intros A H. apply Rle_antisym; [|apply emission_nonneg; try assumption; intros l Il; rewrite H by exact Il; lra].
    apply Rle_trans with (emission n (map (fun l => A l - A l) wl) wl T); [|rewrite emission_minus; lra]. apply emission_le; try assumption. intros l Il. rewrite H by exact Il. lra. }
  assert (Cz : forall steps r Bem Bab Btr, (2 <= steps)%nat -> Bem = 1 \/ Bab = 1 \/ Btr = 0 -> coupled_A steps r Bem Bab Btr = 0).
  { clear. intros steps r Bem Bab Btr Hs H. unfold coupled_A. destruct (angles_spec steps Hs) as (-> & -> & P). cbv zeta.
    rewrite (fold_sum (fun t => (1 + internal_R r t * rpow Bem (1 / t)) * (1 - rpow Bem (1 / t)) * (1 - rpow Bab (1 / t)) * rpow Btr (1 / t) * t)).
    rewrite (sum_map_ext _ (fun t => t - t)). 2:{ intros t _. destruct H as [-> | [-> | ->]]; rewrite ?rpow_base1; try ring. unfold rpow at 4. destruct (Req_EM_T 0 0); [ring|lra]. }
    rewrite sum_minus. replace (1 / 2 * (1 + internal_R r 1 * Bem) * (1 - Bem) * (1 - Bab) * Btr) with 0 by (destruct H as [-> | [-> | ->]]; ring). unfold Rdiv. ring. }
  assert (G : forall ab Btr, nth (length ab) (couplings steps n T wl refl aem Btr (ab ++ a :: below)) 0 = emission n (map (fun l => coupled_A steps (refl l) (1 - aem l) (1 - a l) (Btr l * through ab l)) wl) wl T).
  { induction ab as [|b ab IH]; intros Btr; cbn [app couplings length nth].
    - apply emission_ext. intros l _. unfold through. cbn [fold_right]. now rewrite Rmult_1_r.
    - rewrite IH. apply emission_ext. intros l _. unfold through. cbn [fold_right]. f_equal. ring. }
  assert (D : forall ab Btr k, (length ab < k)%nat -> (forall l, In l wl -> a l = 1) -> nth k (couplings steps n T wl refl aem Btr (ab ++ a :: below)) 0 = 0).
  { induction ab as [|b ab IH]; intros Btr k Lk H; destruct k as [|k]; cbn [length] in Lk; try lia; cbn [app couplings nth].
    - clear Lk. set (B := fun l => Btr l * (1 - a l)). assert (HB : forall l, In l wl -> B l = 0) by (intros l Il; unfold B; rewrite (H l Il); ring).
      clearbody B. clear - Z0 Cz HB Hs. revert B HB k. induction below as [|b below IH]; intros B HB k; cbn [couplings]; [destruct k; reflexivity|]. destruct k as [|k]; cbn [nth].
      + apply Z0. intros l Il. apply Cz; [exact Hs|]. right. right. now apply HB.
      + apply IH. intros l Il. rewrite (HB l Il). ring.
    - apply IH; [lia|exact H]. }
  split; [|split].
  - intros H k [Lk _]. unfold J, couplings_of. now apply D.
  - intros H. unfold J, couplings_of. rewrite G. apply Z0. intros l Il. apply Cz; [exact Hs|]. right. left. rewrite (H l Il). ring.
  - intros H. unfold J, couplings_of. generalize (fun _ : R => 1) as B. clear - Z0 Cz H Hs. induction (above ++ a :: below) as [|b bs IH]; intros B k; cbn [couplings]; [destruct k; reflexivity|]. destruct k as [|k]; cbn [nth]; [|apply IH].
    apply Z0. intros l Il. apply Cz; [exact Hs|]. left. rewrite (H l Il). ring.
Qed.
(** The first of the junctions below always gets light if both absorb. *)
Lemma coupling_positive steps n T wl refl aem a below : (2 <= steps)%nat -> (forall i, (S i < length wl)%nat -> nth i wl 0 < nth (S i) wl 0) -> (2 <= length wl)%nat -> Forall (fun l => 0 < l) wl -> n <> 0 -> (forall l, In l wl -> 0 <= refl l) ->
  (forall l, In l wl -> 0 < aem l <= 1) -> (forall l, In l wl -> 0 < a l <= 1) -> 0 < nth 0 (couplings_of steps n T wl refl aem (a :: below)) 0.
Proof.
  intros Hs Hi L2 P Nn Hr Fe Fa. unfold couplings_of. cbn [couplings nth]. rewrite emission_spec.
  set (g := fun l => weight n T l * coupled_A steps (refl l) (1 - aem l) (1 - a l) 1).
  enough (G : forall l, In l wl -> 0 < g l).
  { apply np_trapz_pos; [now rewrite map_length|exact L2| | |exact Hi].
    - intros v Iv. apply in_map_iff in Iv as (l & <- & Il). left. now apply G.
    - destruct wl as [|l wl]; [cbn in L2; lia|]. cbn [map nth]. apply G. now left. }
  intros l Il. unfold g. specialize (Fe l Il). specialize (Fa l Il). specialize (Hr l Il). rewrite Forall_forall in P. specialize (P l Il).
  apply Rmult_lt_0_compat.
  - pose proof q_pos. pose proof c_pos. unfold weight. assert (0 < n ^ 2) by (rewrite <- Rsqr_pow2; now apply Rsqr_pos_lt). assert (0 < l ^ 4) by (apply pow_lt; exact P).
    apply Rmult_lt_0_compat; [|apply exp_pos]. apply Rmult_lt_0_compat; [|apply Rdiv_lt_0_compat; lra]. apply Rmult_lt_0_compat; [apply Rmult_lt_0_compat; [lra|assumption]|lra].
  - unfold coupled_A. destruct (angles_spec steps Hs) as (-> & -> & Pa). cbv zeta. pose proof PI_RGT_0. pose proof (pos_INR steps). apply Rmult_lt_0_compat; [|apply Rinv_0_lt_compat; lra]. apply Rmult_lt_0_compat; [lra|].
    rewrite (fold_sum (fun t => (1 + internal_R (refl l) t * rpow (1 - aem l) (1 / t)) * (1 - rpow (1 - aem l) (1 / t)) * (1 - rpow (1 - a l) (1 / t)) * rpow 1 (1 / t) * t)).
    assert (0 <= sum (map (fun t => (1 + internal_R (refl l) t * rpow (1 - aem l) (1 / t)) * (1 - rpow (1 - aem l) (1 / t)) * (1 - rpow (1 - a l) (1 / t)) * rpow 1 (1 / t) * t) (angles steps))).
    { apply sum_nonneg. intros t It. pose proof (Pa t It) as Pt. assert (0 < 1 / t) by (apply Rdiv_lt_0_compat; lra). pose proof (rpow_range (1 - aem l) (1 / t) ltac:(lra) ltac:(assumption)). pose proof (rpow_range (1 - a l) (1 / t) ltac:(lra) ltac:(assumption)). pose proof (internal_R_range (refl l) t Hr Pt). rewrite rpow_base1.
      assert (0 <= internal_R (refl l) t * rpow (1 - aem l) (1 / t)) by (apply Rmult_le_pos; lra). apply Rmult_le_pos; [apply Rmult_le_pos; [apply Rmult_le_pos; [apply Rmult_le_pos|]|]|]; lra. }
    pose proof (internal_R_range (refl l) 1 Hr ltac:(lra)). assert (0 <= internal_R (refl l) 1 * (1 - aem l)) by (apply Rmult_le_pos; lra).
    assert (0 < (1 + internal_R (refl l) 1 * (1 - aem l)) * aem l * a l) by (apply Rmult_lt_0_compat; [apply Rmult_lt_0_compat|]; lra). lra.
Qed.
(** A cell that absorbs half of the light above one that absorbs it all, above a third one. *)
Example C140_case : let wl := [5 / 10 ^ 7; 7 / 10 ^ 7; 9 / 10 ^ 7] in
  let J := couplings_of 20 (35 / 10) 300 wl (fun _ => 3 / 10) (fun _ => 1 / 2) [(fun _ => 1); (fun _ => 1 / 2)] in
  0 < nth 0 J 0 /\ nth 1 J 0 = 0 /\ sum J <= emission (35 / 10) (map (fun l => surface_integral 20 (3 / 10) (1 / 2)) wl) wl 300.
Proof.
  intros wl J. assert (Iw : forall i, (S i < length wl)%nat -> nth i wl 0 < nth (S i) wl 0).
  { intros i Hi. unfold wl in *. cbn [length] in Hi. destruct i as [|[|i]]; try lia; cbn; lra. }
  assert (P : Forall (fun l => 0 < l) wl) by (unfold wl; repeat constructor; lra). assert (Fb : Forall (fun a => fraction a wl) ([] ++ (fun _ => 1) :: [(fun _ => 1 / 2)])) by (repeat constructor; lra).
  assert (Fe : fraction (fun _ => 1 / 2) wl) by (intros l _; lra). assert (Hr : forall l, In l wl -> 0 <= 3 / 10) by (intros; lra). assert (Nd : nondecreasing wl) by now apply nondecreasing_step.
  split; [|split].
  - apply coupling_positive; try assumption; try lia; try lra; [cbn; lia|intros; lra|intros; lra].
  - destruct (C140_blocked 20 (35 / 10) 300 wl (fun _ => 3 / 10) (fun _ => 1 / 2) [] (fun _ => 1) [(fun _ => 1 / 2)] ltac:(lia) Nd P Hr Fe Fb) as [B _]. apply B; [reflexivity|cbn; lia].
  - apply (C140_balance 20 (35 / 10) 300 wl (fun _ => 3 / 10) (fun _ => 1 / 2) [(fun _ => 1); (fun _ => 1 / 2)] ltac:(lia) Nd P Hr Fe Fb).
Qed.

(** * C141: the node equations *)

Lemma sigma_le (f g : nat -> R) m : (forall i, (i < m)%nat -> f i <= g i) -> sigma f m <= sigma g m.
Proof. intros H. induction m as [|m IH]; cbn [sigma]; [lra|]. assert (f m <= g m) by (apply H; lia). assert (sigma f m <= sigma g m) by (apply IH; intros; apply H; lia). lra. Qed.
Lemma sigma_lt (f g : nat -> R) m : (forall i, (i < m)%nat -> f i < g i) -> (0 < m)%nat -> sigma f m < sigma g m.
Proof. intros H Lm. destruct m as [|m]; [lia|]. cbn [sigma]. assert (f m < g m) by (apply H; lia). assert (sigma f m <= sigma g m) by (apply sigma_le; intros; apply Rlt_le, H; lia). lra. Qed.
Lemma sigma_nonneg (f : nat -> R) m : (forall i, (i < m)%nat -> 0 <= f i) -> 0 <= sigma f m.
Proof. intros H. induction m as [|m IH]; cbn [sigma]; [lra|]. assert (0 <= f m) by (apply H; lia). assert (0 <= sigma f m) by (apply IH; intros; apply H; lia). lra. Qed.
Lemma sigma_0 m : sigma (fun _ => 0) m = 0.
Proof. induction m; cbn [sigma]; lra. Qed.

(** What it means to be the operating point of junctions in series with light from the upper
    to the lower ones: one current, and voltages that add up. *)
Definition operating (num : nat) (iv : nat -> R -> R) (C : nat -> nat -> R) (T Rs V : R) (v : nat -> R) (I : R) : Prop :=
  (forall j, (j < num)%nat -> iv j (v j) = I + sigma (fun i => C i j * exp (q * v i / (kb * T))) j) /\
  sigma v num + Rs * I = V.

(** A zero of the node equations is an operating point, and conversely. *)
Theorem C141_nodes : forall num iv C T R_series V v, (0 < num)%nat ->
  (forall j, (j < num)%nat -> F num iv C T R_series V v j = 0) <->
  operating num iv C T (Rmax R_series (/ 10 ^ 14)) V v (iv 0%nat (v 0%nat)).
Proof.
  intros num iv C T R_series V v Hn. pose proof (series_R_pos R_series) as P. unfold series_R in P. split.
  - intros H. assert (N : forall j, (j < num)%nat -> net iv C T v j = iv 0%nat (v 0%nat)).
    { induction j as [|j IH]; intros Lj; [unfold net; cbn [sigma]; ring|]. specialize (H (S j) Lj). cbn [F] in H. rewrite IH in H by lia. lra. }
    split; [intros j Lj; specialize (N j Lj); unfold net, coupled in N; lra|].
    specialize (H 0%nat Hn). cbn [F] in H. unfold series_R in H. assert (E : (V - sigma v num) / Rmax R_series (/ 10 ^ 14) = iv 0%nat (v 0%nat)) by lra.
    rewrite <- E. field. lra.
  - intros [H E] j Lj. destruct j as [|j]; cbn [F].
    + unfold series_R. replace V with (sigma v num + Rmax R_series (/ 10 ^ 14) * iv 0%nat (v 0%nat)) by exact E. field. lra.
    + unfold net, coupled. rewrite (H j) by lia. rewrite (H (S j)) by lia. ring.
Qed.

Definition nondec (f : R -> R) : Prop := forall x y, x <= y -> f x <= f y.
Lemma nondec_lt f x y : nondec f -> f x < f y -> x < y.
Proof. intros H L. destruct (Rlt_dec x y) as [|N]; [assumption|]. specialize (H y x). lra. Qed.
Lemma exp_le' x y : x <= y -> exp x <= exp y.
Proof. intros [L| ->]; [left; now apply exp_increasing|right; reflexivity]. Qed.
Lemma growth (C : nat -> nat -> R) T (v v' : nat -> R) (i j : nat) : 0 <= C i j -> 0 < T -> v' i <= v i -> C i j * exp (q * v' i / (kb * T)) <= C i j * exp (q * v i / (kb * T)).
Proof.
  intros HC HT L. apply Rmult_le_compat_l; [exact HC|]. apply exp_le'. pose proof q_pos. pose proof kb_pos. unfold Rdiv. apply Rmult_le_compat_r; [left; apply Rinv_0_lt_compat; now apply Rmult_lt_0_compat|]. apply Rmult_le_compat_l; lra.
Qed.
(** With junctions whose current does not decrease with the voltage, the current of an
    operating point is determined; more light does not decrease the current that the cell
    delivers; strictly increasing junctions have one operating point. *)
Lemma current_order num iv C C' T Rs V v v' I I' : (0 < num)%nat -> 0 < T -> 0 < Rs -> (forall j, (j < num)%nat -> nondec (iv j)) ->
  (forall i j, (i < j < num)%nat -> 0 <= C' i j <= C i j) ->
  operating num iv C T Rs V v I -> operating num iv C' T Rs V v' I' -> I <= I'.
Proof.
  intros Hn HT HR Hiv HC [A B] [A' B']. destruct (Rle_dec I I') as [|N]; [assumption|]. exfalso. assert (L : I' < I) by lra.
  assert (G : forall m j, (j < m)%nat -> (m <= num)%nat -> v' j < v j).
  { induction m as [|m IH]; intros j Lj Lm; [lia|]. destruct (Nat.eq_dec j m) as [->|]; [|apply IH; lia].
    apply (nondec_lt (iv m)); [apply Hiv; lia|]. rewrite A, A' by lia.
    assert (sigma (fun i => C' i m * exp (q * v' i / (kb * T))) m <= sigma (fun i => C i m * exp (q * v i / (kb * T))) m); [|lra].
    apply sigma_le. intros i Li. destruct (HC i m) as [C1 C2]; [lia|]. apply Rle_trans with (C' i m * exp (q * v i / (kb * T))).
    - apply growth; [exact C1|exact HT|]. apply Rlt_le, IH; lia.
    - apply Rmult_le_compat_r; [left; apply exp_pos|exact C2]. }
  assert (sigma v' num < sigma v num) by (apply sigma_lt; [intros i Li; now apply (G num)|exact Hn]).
  assert (Rs * I' < Rs * I) by (apply Rmult_lt_compat_l; assumption). lra.
Qed.
Theorem C141_unique : forall num iv C T Rs V v v' I I', (0 < num)%nat -> 0 < T -> 0 < Rs -> (forall j, (j < num)%nat -> nondec (iv j)) ->
  (forall i j, (i < j < num)%nat -> 0 <= C i j) ->
  operating num iv C T Rs V v I -> operating num iv C T Rs V v' I' ->
  I = I' /\ ((forall j, (j < num)%nat -> forall x y, x < y -> iv j x < iv j y) -> forall j, (j < num)%nat -> v j = v' j).
Proof.
  intros num iv C T Rs V v v' I I' Hn HT HR Hiv HC O1 O2. assert (E : I = I').
  { assert (HC' : forall i j, (i < j < num)%nat -> 0 <= C i j <= C i j) by (intros i j L; specialize (HC i j L); lra).
    apply Rle_antisym; [exact (current_order num iv C C T Rs V v v' I I' Hn HT HR Hiv HC' O1 O2)|exact (current_order num iv C C T Rs V v' v I' I Hn HT HR Hiv HC' O2 O1)]. }
  split; [exact E|]. intros St. subst I'. destruct O1 as [A _], O2 as [A' _].
  assert (G : forall m j, (j < m)%nat -> (m <= num)%nat -> v j = v' j).
  { induction m as [|m IH]; intros j Lj Lm; [lia|]. destruct (Nat.eq_dec j m) as [->|]; [|apply IH; lia].
    assert (Es : iv m (v m) = iv m (v' m)).
    { rewrite A, A' by lia. f_equal. assert (X : forall k, (k <= m)%nat -> sigma (fun i => C i m * exp (q * v i / (kb * T))) k = sigma (fun i => C i m * exp (q * v' i / (kb * T))) k); [|now apply X].
      induction k as [|k IHk]; intros Lk; cbn [sigma]; [reflexivity|]. rewrite IHk by lia. rewrite (IH k) by lia. reflexivity. }
    destruct (Rtotal_order (v m) (v' m)) as [L|[L|L]]; [|exact L|]; apply (St m ltac:(lia)) in L; lra. }
  intros j Lj. now apply (G num).
Qed.
(** Currents are negative when the cell delivers power: with the coupling the delivered
    current is at least that without. *)
Theorem C141_gain : forall num iv C T Rs V v v' I I', (0 < num)%nat -> 0 < T -> 0 < Rs -> (forall j, (j < num)%nat -> nondec (iv j)) ->
  (forall i j, (i < j < num)%nat -> 0 <= C i j) ->
  operating num iv C T Rs V v I -> operating num iv (fun _ _ => 0) T Rs V v' I' -> - I' <= - I.
Proof.
  intros num iv C T Rs V v v' I I' Hn HT HR Hiv HC O1 O2. assert (I <= I'); [|lra]. apply (current_order num iv C (fun _ _ => 0) T Rs V v v' I I' Hn HT HR Hiv); [|exact O1|exact O2]. intros i j L. specialize (HC i j L). lra.
Qed.
(** The equations lack the light that the lower junctions send back: in the dark, at zero
    voltage, every operating point delivers current. *)
Theorem C141_dark_current : forall num iv C T Rs v I, (2 <= num)%nat -> 0 < T -> 0 < Rs ->
  (forall j, (j < num)%nat -> forall x y, x < y -> iv j x < iv j y) -> (forall j, (j < num)%nat -> iv j 0 = 0) ->
  (forall i j, (i < j < num)%nat -> 0 <= C i j) -> 0 < C 0%nat 1%nat ->
  operating num iv C T Rs 0 v I -> 0 < - I.
Proof.
  intros num iv C T Rs v I Hn HT HR St Z0 HC HC1 [A B]. destruct (Rlt_dec 0 (- I)) as [|N]; [assumption|]. exfalso. assert (PI0 : 0 <= I) by lra.
  assert (G : forall j, (j < num)%nat -> 0 <= v j).
  { intros j Lj. destruct (Rle_dec 0 (v j)) as [|Nv]; [assumption|]. exfalso. assert (L : v j < 0) by lra. apply (St j Lj) in L. rewrite (Z0 j Lj), (A j Lj) in L.
    assert (0 <= sigma (fun i => C i j * exp (q * v i / (kb * T))) j); [|lra]. apply sigma_nonneg. intros i Li. apply Rmult_le_pos; [apply HC; lia|left; apply exp_pos]. }
  assert (G1 : 0 < v 1%nat).
  { destruct (Rlt_dec 0 (v 1%nat)) as [|Nv]; [assumption|]. exfalso. assert (E : v 1%nat = 0) by (specialize (G 1%nat ltac:(lia)); lra). specialize (A 1%nat ltac:(lia)). rewrite E, (Z0 1%nat ltac:(lia)) in A. cbn [sigma] in A.
    assert (0 < C 0%nat 1%nat * exp (q * v 0%nat / (kb * T))) by (apply Rmult_lt_0_compat; [exact HC1|apply exp_pos]). lra. }
  assert (0 < sigma v num).
  { destruct num as [|[|m]]; try lia. clear - G G1. induction m as [|m IH]; [cbn [sigma]; specialize (G 0%nat ltac:(lia)); lra|]. change (sigma v (S (S (S m)))) with (sigma v (S (S m)) + v (S (S m))).
    assert (0 <= v (S (S m))) by (apply G; lia). assert (0 < sigma v (S (S m))) by (apply IH; intros; apply G; lia). lra. }
  assert (0 <= Rs * I) by (apply Rmult_le_pos; lra). lra.
Qed.

(** The loop over the voltages: what is returned for each of them is its operating point, if
    scipy's root finder finds a zero. *)
Theorem C141_loop : forall num iv C T R_series root, (0 < num)%nat ->
  (forall V guess j, (j < num)%nat -> F num iv C T R_series V (root (F num iv C T R_series V) guess) j = 0) ->
  forall Vs guess, let sols := coupling_loop num iv C T R_series root guess Vs in
  Forall2 (fun V s => operating num iv C T (Rmax R_series (/ 10 ^ 14)) V (snd s) (fst s)) Vs sols /\
  (forall j i k, (i < j < num)%nat -> (k < length Vs)%nat ->
     nth k (nth i (nth (j - 1) (coupled_J num C T sols) []) []) 0 = C i j * exp (q * snd (nth k sols (0, fun _ => 0)) i / (kb * T))).
Proof.
  intros num iv C T R_series root Hn Hroot Vs guess sols. split.
  - unfold sols. revert guess sols. induction Vs as [|V Vs IH]; intros guess sols; cbn [coupling_loop]; [constructor|]. cbv zeta. constructor; [|apply IH].
    cbn [fst snd]. apply C141_nodes; [exact Hn|]. intros j Lj. now apply Hroot.
  - intros j i k Lij Lk. assert (Ls : length sols = length Vs).
    { unfold sols. clear. revert guess. induction Vs as [|V Vs IH]; intros guess; cbn [coupling_loop length]; [reflexivity|]. cbv zeta. cbn [length]. now rewrite IH. }
    unfold coupled_J. set (f := fun j0 => map (fun i0 => map (fun s => coupled C T (snd s) i0 j0) sols) (seq 0 j0)).
    rewrite (nth_indep _ [] (f 0%nat)) by (rewrite map_length, seq_length; lia). rewrite map_nth. rewrite seq_nth by lia. replace (1 + (j - 1))%nat with j by lia. unfold f.
    set (g := fun i0 => map (fun s => coupled C T (snd s) i0 j) sols). rewrite (nth_indep _ [] (g 0%nat)) by (rewrite map_length, seq_length; lia). rewrite map_nth. rewrite seq_nth by lia. cbn [Nat.add]. unfold g.
    set (e := fun s => coupled C T (snd s) i j). rewrite (nth_indep _ 0 (e (0, fun _ => 0))) by (rewrite map_length; lia). rewrite map_nth. reflexivity.
Qed.

(** Two equal resistors in the dark, the first of which sends light to the second. *)
Example C141_case : forall T, 0 < T -> let a := kb * T / q * ln 2 in
  let v := fun j => match j with O => - a | _ => 2 * a end in
  let C := fun i j => match i, j with O, S O => 6 * a | _, _ => 0 end in
  operating 2 (fun _ x => x) C T 1 0 v (- a) /\ 0 < a /\
  (forall v' I', operating 2 (fun _ x => x) C T 1 0 v' I' -> I' = - a /\ v' 0%nat = - a /\ v' 1%nat = 2 * a) /\
  operating 2 (fun _ x => x) (fun _ _ => 0) T 1 0 (fun _ => 0) 0.
Proof.
  intros T HT a v C. pose proof q_pos as Pq. pose proof kb_pos as Pk. assert (Pl : 0 < ln 2) by (rewrite <- ln_1; apply ln_increasing; lra).
  assert (Pa : 0 < a) by (unfold a; apply Rmult_lt_0_compat; [apply Rdiv_lt_0_compat; [now apply Rmult_lt_0_compat|lra]|exact Pl]).
  assert (E : exp (q * v 0%nat / (kb * T)) = / 2).
  { unfold v. replace (q * - a / (kb * T)) with (- ln 2) by (unfold a; field; lra). rewrite exp_Ropp, exp_ln by lra. reflexivity. }
  assert (O1 : operating 2 (fun _ x => x) C T 1 0 v (- a)).
  { split; [|cbn [sigma]; unfold v; ring]. intros [|[|j]] Lj; try lia; cbn [sigma]; [unfold v; ring|]. rewrite E. unfold v, C. field. }
  split; [exact O1|]. split; [exact Pa|]. split.
  - intros v' I' O2. destruct (C141_unique 2 (fun _ x => x) C T 1 0 v' v I' (- a) ltac:(lia) HT ltac:(lra)) as [U1 U2]; try assumption.
    + intros j _ x y L. exact L.
    + intros i j _. unfold C. destruct i as [|i], j as [|[|j]]; lra.
    + split; [exact U1|]. specialize (U2 ltac:(intros j _ x y L; exact L)). split; [exact (U2 0%nat ltac:(lia))|exact (U2 1%nat ltac:(lia))].
  - split; [|cbn [sigma]; ring]. intros [|[|j]] Lj; try lia; cbn [sigma]; ring.
Qed.
(** So the expectation that a cell in the dark at zero voltage delivers no current is false. *)
Theorem C141_dark_refuted : exists num iv C T Rs v I, 0 < T /\ 0 < Rs /\
  (forall j, (j < num)%nat -> forall x y, x < y -> iv j x < iv j y) /\ (forall j, (j < num)%nat -> iv j 0 = 0) /\
  (forall i j, (i < j < num)%nat -> 0 <= C i j) /\ operating num iv C T Rs 0 v I /\ 0 < - I.
Proof.
  destruct (C141_case 300 ltac:(lra)) as (O & P & _). cbv zeta in O, P. set (a := kb * 300 / q * ln 2) in *.
  exists 2%nat, (fun _ x => x), (fun i j => match i, j with O, S O => 6 * a | _, _ => 0 end), 300, 1, (fun j => match j with O => - a | _ => 2 * a end), (- a).
  split; [lra|]. split; [lra|]. split; [intros j _ x y L; exact L|]. split; [reflexivity|]. split; [|split; [exact O|lra]].
  intros i j _. destruct i as [|i], j as [|[|j]]; lra.
Qed.

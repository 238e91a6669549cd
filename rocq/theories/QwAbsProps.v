(** C94: the absorption and the emission of quantum wells. *)
From Coq Require Import Reals String List Bool Arith ZArith Lia Lra Psatz.
From Coquelicot Require Import Coquelicot.
From Verif Require Import Common PhysConst NpModel QwAbsModel.
From Coq Require Import List.
Import ListNotations.
Open Scope R_scope.
Open Scope list_scope.

Ltac pos := repeat first [assumption|lra|apply Rdiv_lt_0_compat|apply Rmult_lt_0_compat|apply pow_lt].
(** * One transition *)
Lemma heaviside_range x : 0 <= heaviside x <= 1.
Proof. unfold heaviside. destruct (Rlt_dec x 0); lra. Qed.
Lemma reduced_pos me mh : 0 < me -> 0 < mh -> 0 < reduced me mh.
Proof. intros A B. unfold reduced. apply Rdiv_lt_0_compat; nra. Qed.
Lemma prefactor_pos nr E : 0 < nr -> 0 < E -> 0 < prefactor nr E.
Proof.
  intros A B. unfold prefactor. pose proof PI_RGT_0. pose proof q_pos. pose proof c_pos. pose proof vacuum_permittivity_pos.
  pose proof electron_mass_pos. pose proof hbar_pos.
  pos.
Qed.
Lemma dos_pos mr w : 0 < mr -> 0 < w -> 0 < dos_2d mr w.
Proof.
  intros A B. unfold dos_2d. pose proof PI_RGT_0. pose proof hbar_pos.
  pos.
Qed.
Lemma m_bulk_pos Ep : 0 < Ep -> 0 < m_bulk Ep.
Proof. intros A. unfold m_bulk. pose proof electron_mass_pos. nra. Qed.
Lemma overlap_nonneg a b z : 0 <= overlap a b z.
Proof. unfold overlap. apply pow2_ge_0. Qed.
Lemma prefactor_E nr E E' : 0 < nr -> 0 < E -> 0 < E' -> E * prefactor nr E = E' * prefactor nr E'.
Proof.
  intros A B C'. unfold prefactor. pose proof c_pos. pose proof vacuum_permittivity_pos. pose proof electron_mass_pos. pose proof hbar_pos.
  field. repeat split; lra.
Qed.
Lemma dos_w mr w w' : 0 < w -> 0 < w' -> w * dos_2d mr w = w' * dos_2d mr w'.
Proof. intros A B. unfold dos_2d. pose proof PI_RGT_0. pose proof hbar_pos. field. repeat split; lra. Qed.
Section One.
Context (me mh Ep nr : R) (Hme : 0 < me) (Hmh : 0 < mh) (HEp : 0 < Ep) (Hnr : 0 < nr).
Lemma alpha_hh_nonneg E z Ee Eh pe ph w : 0 < E -> 0 < w -> 0 <= alpha_hh E z Ee Eh pe ph w me mh Ep nr.
Proof.
  intros HE Hw. unfold alpha_hh. pose proof (prefactor_pos nr E Hnr HE). pose proof (overlap_nonneg pe ph z).
  pose proof (dos_pos _ w (reduced_pos _ _ Hme Hmh) Hw). pose proof (m_bulk_pos Ep HEp). pose proof (heaviside_range (E - (Ee - Eh))).
  repeat first [lra|apply Rmult_le_pos].
Qed.
(** No absorption below the transition; above it, absorption falls with the inverse of the energy,
    and with the inverse of the width of the well. *)
Theorem C94_edge : forall E E' z Ee Eh pe ph w w', 0 < E -> 0 < E' -> 0 < w -> 0 < w' ->
  (E < Ee - Eh -> alpha_hh E z Ee Eh pe ph w me mh Ep nr = 0 /\ alpha_lh E z Ee Eh pe ph w me mh Ep nr = 0) /\
  0 <= alpha_hh E z Ee Eh pe ph w me mh Ep nr /\
  (Ee - Eh <= E -> Ee - Eh <= E' ->
    E * w * alpha_hh E z Ee Eh pe ph w me mh Ep nr = E' * w' * alpha_hh E' z Ee Eh pe ph w' me mh Ep nr) /\
  (Ee - Eh <= E -> overlap pe ph z <> 0 -> 0 < alpha_hh E z Ee Eh pe ph w me mh Ep nr).
Proof.
  intros E E' z Ee Eh pe ph w w' HE HE' Hw Hw'. split; [|split; [|split]].
  - intros H. unfold alpha_hh, alpha_lh, heaviside. destruct (Rlt_dec (E - (Ee - Eh)) 0); [|lra]. split; ring.
  - now apply alpha_hh_nonneg.
  - intros H H'. unfold alpha_hh, heaviside. destruct (Rlt_dec (E - (Ee - Eh)) 0); [lra|]. destruct (Rlt_dec (E' - (Ee - Eh)) 0); [lra|].
    transitivity (E * prefactor nr E * (w * dos_2d (reduced me mh) w) * (overlap pe ph z * (3 / 2 * m_bulk Ep))); [ring|].
    rewrite (prefactor_E nr E E' Hnr HE HE'), (dos_w _ w w' Hw Hw'). ring.
  - intros H N. unfold alpha_hh, heaviside. destruct (Rlt_dec (E - (Ee - Eh)) 0); [lra|].
    pose proof (prefactor_pos nr E Hnr HE). pose proof (overlap_nonneg pe ph z).
    pose proof (dos_pos _ w (reduced_pos _ _ Hme Hmh) Hw). pose proof (m_bulk_pos Ep HEp).
    repeat first [lra|apply Rmult_lt_0_compat].
Qed.
(** For light polarised in the plane, heavy holes count three times as much as light holes. *)
Theorem C94_weights : forall E z Ee Eh pe ph w, alpha_hh E z Ee Eh pe ph w me mh Ep nr = 3 * alpha_lh E z Ee Eh pe ph w me mh Ep nr.
Proof. intros. unfold alpha_hh, alpha_lh. field. Qed.
End One.

(** * The overlap of two states *)
Lemma trapz_linear {A} (F G H : A -> R) k1 k2 k3 : forall l x,
  np_trapz (map (fun p => k1 * F p + k2 * G p + k3 * H p) l) x = k1 * np_trapz (map F l) x + k2 * np_trapz (map G l) x + k3 * np_trapz (map H l) x.
Proof.
  induction l as [|a l IH]; intros x; [cbn; ring|]. destruct l as [|b l]; [cbn; destruct x; ring|].
  destruct x as [|x0 [|x1 x]]; [cbn; ring|cbn; ring|]. specialize (IH (x1 :: x)). cbn [map] in *. rewrite !np_trapz_cons, IH. field.
Qed.
Definition normalised (psi z : list R) : Prop := length psi = length z /\ np_trapz (map (fun v => v ^ 2) psi) z = 1.
Lemma combine_sq_fst (a b : list R) : length a = length b -> map (fun p => fst p ^ 2) (combine a b) = map (fun v => v ^ 2) a.
Proof. revert b. induction a as [|x a IH]; intros [|y b] H; try discriminate; [reflexivity|]. cbn [combine map fst]. rewrite IH by (now injection H). reflexivity. Qed.
Lemma combine_sq_snd (a b : list R) : length a = length b -> map (fun p => snd p ^ 2) (combine a b) = map (fun v => v ^ 2) b.
Proof. revert b. induction a as [|x a IH]; intros [|y b] H; try discriminate; [reflexivity|]. cbn [combine map snd]. rewrite IH by (now injection H). reflexivity. Qed.
(** The overlap of normalised states is between nothing and one, and one for a state with itself. *)
Theorem C94_overlap : forall pe ph z, nondecreasing z -> normalised pe z -> normalised ph z ->
  0 <= overlap pe ph z <= 1 /\ overlap pe pe z = 1.
Proof.
  intros pe ph z Hz [L1 N1] [L2 N2]. split.
  - split; [apply overlap_nonneg|]. unfold overlap. set (B := np_trapz (map (fun p => fst p * snd p) (combine pe ph)) z).
    assert (Q : 0 <= B ^ 2 * 1 + - 2 * B * B + 1); [|nra].
    rewrite <- N1 at 1. rewrite <- N2. rewrite <- (combine_sq_fst pe ph) by congruence. rewrite <- (combine_sq_snd pe ph) by congruence.
    rewrite <- (Rmult_1_l (np_trapz (map (fun p : R * R => snd p ^ 2) _) z)). unfold B at 3.
    rewrite <- trapz_linear. apply np_trapz_nonneg; [|intros v Hv|exact Hz].
    + rewrite map_length, combine_length, L1, L2. apply Nat.min_id.
    + apply in_map_iff in Hv as ([a b] & <- & _). cbn [fst snd].
      replace (B ^ 2 * a ^ 2 + -2 * B * (a * b) + 1 * b ^ 2) with ((B * a - b) ^ 2) by ring. apply pow2_ge_0.
  - unfold overlap. assert (E : map (fun p : R * R => fst p * snd p) (combine pe pe) = map (fun v => v ^ 2) pe).
    { clear. induction pe as [|x pe IH]; [reflexivity|]. cbn [combine map fst snd]. rewrite IH. f_equal. ring. }
    rewrite E, N1. ring.
Qed.

(** * All transitions *)
Definition total (l : list R) : R := fold_right Rplus 0 l.
Lemma fold_total {A} (g : A -> R) l : forall a, fold_left (fun a x => a + g x) l a = a + total (map g l).
Proof. induction l as [|x l IH]; intros a; cbn [fold_left map total fold_right]; [ring|]. rewrite IH. unfold total. ring. Qed.
Lemma sum_pairs_total alpha Ee pe Eh ph :
  sum_pairs alpha Ee pe Eh ph = total (map (fun e => total (map (fun h => alpha (fst e) (snd e) (fst h) (snd h)) (combine Eh ph))) (combine Ee pe)).
Proof.
  unfold sum_pairs. generalize (combine Ee pe) as le. intros le.
  assert (E : forall le a, fold_left (fun a e => fold_left (fun a h => a + alpha (fst e) (snd e) (fst h) (snd h)) (combine Eh ph) a) le a
    = fold_left (fun a e => a + total (map (fun h => alpha (fst e) (snd e) (fst h) (snd h)) (combine Eh ph))) le a).
  { clear le. induction le as [|e le IH]; intros a; [reflexivity|]. cbn [fold_left]. now rewrite fold_total, IH. }
  rewrite E, fold_total. ring.
Qed.
Lemma total_le {A} (f g : A -> R) l : (forall x, In x l -> f x <= g x) -> total (map f l) <= total (map g l).
Proof.
  induction l as [|x l IH]; intros H; cbn [map total fold_right]; [lra|]. pose proof (H x (or_introl eq_refl)).
  assert (total (map f l) <= total (map g l)) by (apply IH; intros y Hy; apply H; now right). unfold total in *. lra.
Qed.
Lemma total_scale {A} (f : A -> R) k l : total (map (fun x => k * f x) l) = k * total (map f l).
Proof. induction l as [|x l IH]; cbn [map total fold_right]; [ring|]. unfold total in *. rewrite IH. ring. Qed.
Lemma total_zero {A} (f : A -> R) l : (forall x, In x l -> f x = 0) -> total (map f l) = 0.
Proof.
  induction l as [|x l IH]; intros H; [reflexivity|]. cbn [map total fold_right]. rewrite (H x (or_introl eq_refl)).
  unfold total in IH. rewrite IH by (intros y Hy; apply H; now right). ring.
Qed.
Section Sums.
Context (me mh Ep nr w : R) (Hme : 0 < me) (Hmh : 0 < mh) (HEp : 0 < Ep) (Hnr : 0 < nr) (Hw : 0 < w).
(** The sum has every electron state with every hole state; it starts at the lowest transition and,
    times the energy, is a staircase that never goes down. *)
Theorem C94_staircase : forall z Ee Eh pe ph,
  (forall E, sum_hh E z Ee Eh pe ph w me mh Ep nr =
     total (map (fun e => total (map (fun h => alpha_hh E z (fst e) (fst h) (snd e) (snd h) w me mh Ep nr) (combine Eh ph))) (combine Ee pe))) /\
  (forall E, (forall e h, In e Ee -> In h Eh -> E < e - h) -> 0 < E -> sum_hh E z Ee Eh pe ph w me mh Ep nr = 0) /\
  (forall E E', 0 < E <= E' -> E * sum_hh E z Ee Eh pe ph w me mh Ep nr <= E' * sum_hh E' z Ee Eh pe ph w me mh Ep nr) /\
  (forall E, 0 < E -> 0 <= sum_hh E z Ee Eh pe ph w me mh Ep nr) /\
  (forall E, sum_hh E z Ee Eh pe ph w me mh Ep nr = 3 * sum_lh E z Ee Eh pe ph w me mh Ep nr).
Proof.
  intros z Ee Eh pe ph. unfold sum_hh, sum_lh. split; [|split; [|split; [|split]]].
  - intros E. apply sum_pairs_total.
  - intros E H HE. rewrite sum_pairs_total. apply total_zero. intros [e p] He. apply total_zero. intros [h p'] Hh. cbn [fst snd].
    apply C94_edge with (E' := E) (w' := w); auto. apply H; [eapply in_combine_l; eassumption|eapply in_combine_l; eassumption].
  - intros E E' HE. rewrite !sum_pairs_total, <- !total_scale. apply total_le. intros [e p] _. rewrite <- !total_scale. apply total_le.
    intros [h p'] _. cbn [fst snd]. destruct (Rlt_dec E (e - h)) as [L|L].
    + destruct (C94_edge me mh Ep nr Hme Hmh HEp Hnr E E' z e h p p' w w) as (A & _); try lra. destruct (A L) as [-> _].
      rewrite Rmult_0_r. apply Rmult_le_pos; [lra|]. apply alpha_hh_nonneg; lra.
    + destruct (C94_edge me mh Ep nr Hme Hmh HEp Hnr E E' z e h p p' w w) as (_ & _ & A & _); try lra. specialize (A ltac:(lra) ltac:(lra)).
      apply (Rmult_le_reg_l w); [exact Hw|]. lra.
  - intros E HE. rewrite sum_pairs_total. apply (Rle_trans _ (total (map (fun _ => 0) (combine Ee pe)))).
    + right. symmetry. now apply total_zero.
    + apply total_le. intros [e p] _. apply (Rle_trans _ (total (map (fun _ => 0) (combine Eh ph)))).
      * right. symmetry. now apply total_zero.
      * apply total_le. intros [h p'] _. apply alpha_hh_nonneg; assumption.
  - intros E. rewrite !sum_pairs_total, <- total_scale. f_equal. apply map_ext. intros [e p]. rewrite <- total_scale. f_equal. apply map_ext.
    intros [h p']. apply C94_weights.
Qed.
End Sums.

(** * Lines *)
Lemma lorentz_pos x ce s : 0 < s -> 0 < lorentz x ce s.
Proof.
  intros Hs. unfold lorentz. pose proof PI_RGT_0. apply Rdiv_lt_0_compat.
  - apply Rmult_lt_0_compat; [apply Rdiv_lt_0_compat; lra|lra].
  - assert (0 < (5 / 10 * s) ^ 2) by (apply pow_lt; lra). pose proof (pow2_ge_0 (x - ce)). lra.
Qed.
Lemma gauss_pos x ce s : 0 < s -> 0 < gauss x ce s.
Proof.
  intros Hs. unfold gauss. pose proof PI_RGT_0. assert (0 < sqrt (2 * PI)) by (apply sqrt_lt_R0; lra).
  apply Rmult_lt_0_compat; [|apply exp_pos]. repeat apply Rdiv_lt_0_compat; lra.
Qed.
Lemma line_pos sh x ce s : 0 < s -> 0 < line sh x ce s.
Proof. intros Hs. unfold line. destruct (String.eqb sh "Gauss"); [now apply gauss_pos|now apply lorentz_pos]. Qed.
Lemma lorentz_area ce s A : 0 < s -> 0 <= A -> is_RInt (fun x => lorentz x ce s) (ce - A) (ce + A) (2 / PI * atan (2 * A / s)).
Proof.
  intros Hs HA. pose proof PI_RGT_0 as HP.
  replace (2 / PI * atan (2 * A / s)) with (1 / PI * atan ((ce + A - ce) / (5 / 10 * s)) - 1 / PI * atan ((ce - A - ce) / (5 / 10 * s))).
  2:{ replace ((ce + A - ce) / (5 / 10 * s)) with (2 * A / s) by (field; lra).
      replace ((ce - A - ce) / (5 / 10 * s)) with (- (2 * A / s)) by (field; lra). rewrite atan_opp. field. lra. }
  apply (is_RInt_derive (fun x => 1 / PI * atan ((x - ce) / (5 / 10 * s)))).
  - intros x _. unfold lorentz. auto_derive; [repeat split; lra|].
    assert (0 < (x - ce) ^ 2 + (5 / 10 * s) ^ 2) by (assert (0 < (5 / 10 * s) ^ 2) by (apply pow_lt; lra); pose proof (pow2_ge_0 (x - ce)); lra).
    field. repeat split; try lra.
    all: try (intros E; nra).
  - intros x _. apply @ex_derive_continuous. unfold lorentz. auto_derive.
    assert (0 < (x - ce) ^ 2 + (5 / 10 * s) ^ 2) by (assert (0 < (5 / 10 * s) ^ 2) by (apply pow_lt; lra); pose proof (pow2_ge_0 (x - ce)); lra).
    cbn [pow] in *. repeat split; lra.
Qed.
(** The Lorentzian is highest at its centre and half of that at a distance of half its width; its
    area on an interval about the centre is 2/pi times an arc tangent, below one and as near to one
    as one likes. *)
Theorem C94_lorentz : forall ce s, 0 < s ->
  (forall x, lorentz x ce s <= lorentz ce ce s) /\
  lorentz (ce + s / 2) ce s = lorentz ce ce s / 2 /\ lorentz (ce - s / 2) ce s = lorentz ce ce s / 2 /\
  (forall A, 0 <= A -> is_RInt (fun x => lorentz x ce s) (ce - A) (ce + A) (2 / PI * atan (2 * A / s)) /\ 2 / PI * atan (2 * A / s) < 1) /\
  (forall e, 0 < e -> exists A, 0 <= A /\ 1 - e < 2 / PI * atan (2 * A / s)).
Proof.
  intros ce s Hs. pose proof PI_RGT_0 as HP. split; [|split; [|split; [|split]]].
  - intros x. unfold lorentz. assert (0 < (5 / 10 * s) ^ 2) by (apply pow_lt; lra). pose proof (pow2_ge_0 (x - ce)).
    unfold Rdiv at 1 4. apply Rmult_le_compat_l.
    + assert (0 < 1 / PI) by (apply Rdiv_lt_0_compat; lra). nra.
    + apply Rinv_le_contravar; [|]; replace (ce - ce) with 0 by ring; lra.
  - unfold lorentz. field. repeat split; nra.
  - unfold lorentz. field. repeat split; nra.
  - intros A HA. split; [now apply lorentz_area|]. pose proof (atan_bound (2 * A / s)) as [_ B].
    apply (Rmult_lt_reg_l (PI / 2)); [lra|]. replace (PI / 2 * (2 / PI * atan (2 * A / s))) with (atan (2 * A / s)) by (field; lra). lra.
  - intros e He. set (e' := Rmin e 1). assert (He' : 0 < e' <= 1) by (unfold e'; split; [apply Rmin_glb_lt; lra|apply Rmin_r]).
    set (a := PI / 2 * (1 - e' / 2)). assert (Ha : 0 <= a < PI / 2) by (unfold a; nra).
    assert (Ht : 0 <= tan a). { destruct (Req_dec a 0) as [->|N]; [rewrite tan_0; lra|]. left. apply tan_gt_0; lra. }
    exists (s * tan a / 2). split; [nra|]. replace (2 * (s * tan a / 2) / s) with (tan a) by (field; lra).
    rewrite atan_tan by lra. unfold a. replace (2 / PI * (PI / 2 * (1 - e' / 2))) with (1 - e' / 2) by (field; lra).
    assert (e' <= e) by apply Rmin_l. lra.
Qed.
(** The parameter is called half width at half maximum: neither line has half its height there. *)
Theorem C94_hwhm_refuted : forall ce s, 0 < s ->
  lorentz (ce + s) ce s = lorentz ce ce s / 5 /\ gauss (ce + s) ce s = gauss ce ce s * exp (-2) /\ gauss (ce + s) ce s < gauss ce ce s / 2.
Proof.
  intros ce s Hs. assert (G : gauss (ce + s) ce s = gauss ce ce s * exp (-2)).
  { unfold gauss. rewrite !Rmult_assoc. f_equal. rewrite <- exp_plus. f_equal. field. lra. }
  split; [|split; [exact G|]].
  - unfold lorentz. field. pose proof PI_RGT_0. repeat split; nra.
  - rewrite G. pose proof (gauss_pos ce ce s Hs). unfold Rdiv. apply Rmult_lt_compat_l; [assumption|].
    replace (-2) with (- (2)) by lra. rewrite exp_Ropp. apply Rinv_lt_contravar; [pose proof (exp_pos 2); lra|].
    pose proof (exp_ineq1 2 ltac:(lra)). lra.
Qed.

(** * Excitons *)
Lemma rydberg_pos me mh er : 0 < me -> 0 < mh -> 0 < er -> 0 < rydberg me mh er.
Proof.
  intros A B C'. unfold rydberg. pose proof (reduced_pos _ _ A B). pose proof PI_RGT_0. pose proof q_pos. pose proof hbar_pos.
  pose proof vacuum_permittivity_pos. pos.
Qed.
Lemma div_scale a k : 0 < k -> a / k = a * / k. Proof. reflexivity. Qed.
Section Exciton.
Context (me mh Ep nr w eps s d : R) (Hme : 0 < me) (Hmh : 0 < mh) (HEp : 0 < Ep) (Hnr : 0 < nr) (Hw : 0 < w) (Heps : 0 < eps) (Hs : 0 < s).
(** Binding energy of the n-th exciton. *)
Definition binding (n : Z) : R := rydberg me mh (eps / vacuum_permittivity) / (IZR n - d) ^ 2.
(** An index below one, or a dimensionality outside 0..0.5, is refused; anything else gives a
    positive line below the transition. *)
Theorem C94_exciton_args : forall n E z Ee Eh pe ph shape,
  ((n < 1)%Z \/ d < 0 \/ 1 / 2 < d -> exciton_hh n E z Ee Eh pe ph w me mh Ep nr eps s d shape = Err ValueError /\
                                     exciton_lh n E z Ee Eh pe ph w me mh Ep nr eps s d shape = Err ValueError) /\
  ((1 <= n)%Z -> 0 <= d <= 1 / 2 -> 0 < E ->
    exists a, exciton_hh n E z Ee Eh pe ph w me mh Ep nr eps s d shape = Ok a /\
              exciton_lh n E z Ee Eh pe ph w me mh Ep nr eps s d shape = Ok (a / 3) /\ 0 <= a /\ (overlap pe ph z <> 0 -> 0 < a)).
Proof.
  intros n E z Ee Eh pe ph shape. split.
  - intros H. unfold exciton_hh, exciton_lh. destruct (Z.ltb_spec n 1); [now split|]. destruct (Rlt_dec d 0); [now split|].
    destruct (Rlt_dec (5 / 10) d); [now split|]. exfalso. destruct H as [H|[H|H]]; [lia|lra|lra].
  - intros Hn Hd HE. unfold exciton_hh, exciton_lh. destruct (Z.ltb_spec n 1); [lia|]. destruct (Rlt_dec d 0); [lra|].
    destruct (Rlt_dec (5 / 10) d); [lra|]. cbv zeta. eexists. split; [reflexivity|].
    assert (H1 : 1 <= IZR n) by (apply IZR_le; lia). assert (P3 : 0 < (IZR n - d) ^ 3) by (apply pow_lt; lra).
    pose proof vacuum_permittivity_pos as HV. pose proof (rydberg_pos me mh (eps / vacuum_permittivity) Hme Hmh (Rdiv_lt_0_compat _ _ Heps HV)) as HR.
    set (ry := rydberg me mh (eps / vacuum_permittivity)) in *.
    pose proof (prefactor_pos nr E Hnr HE). pose proof (overlap_nonneg pe ph z).
    pose proof (dos_pos _ w (reduced_pos _ _ Hme Hmh) Hw). pose proof (m_bulk_pos Ep HEp).
    pose proof (line_pos shape E (Ee - Eh + - ry / (IZR n - d) ^ 2) s Hs).
    assert (HO : 0 < 2 * ry / (IZR n - d) ^ 3) by (apply Rdiv_lt_0_compat; lra).
    split; [f_equal; field; lra|]. split.
    + repeat first [lra|apply Rmult_le_pos].
    + intros N. repeat first [lra|apply Rmult_lt_0_compat].
Qed.
(** The centre of the line is below the transition by the binding energy, which falls with the
    index; the first one is bound four times as strongly in two dimensions (0.5) as in three (0). *)
Theorem C94_binding : forall n n' E z Ee Eh pe ph a, 0 <= d <= 1 / 2 -> (1 <= n)%Z -> 0 < E ->
  exciton_hh n E z Ee Eh pe ph w me mh Ep nr eps s d "Lorenzian" = Ok a ->
  0 < binding n /\ ((n < n')%Z -> binding n' < binding n) /\
  (let peak := Ee - Eh - binding n in peak < Ee - Eh /\
     forall b, 0 < peak -> exciton_hh n peak z Ee Eh pe ph w me mh Ep nr eps s d "Lorenzian" = Ok b -> E * a <= peak * b).
Proof.
  intros n n' E z Ee Eh pe ph a Hd Hn HE H. pose proof vacuum_permittivity_pos as HV.
  pose proof (rydberg_pos me mh (eps / vacuum_permittivity) Hme Hmh (Rdiv_lt_0_compat _ _ Heps HV)) as HR.
  assert (H1 : 1 <= IZR n) by (apply IZR_le; lia). assert (P2 : 0 < (IZR n - d) ^ 2) by (apply pow_lt; lra).
  assert (P3 : 0 < (IZR n - d) ^ 3) by (apply pow_lt; lra).
  assert (B0 : 0 < binding n) by (unfold binding; apply Rdiv_lt_0_compat; lra).
  split; [exact B0|]. split.
  - intros L. unfold binding, Rdiv. apply Rmult_lt_compat_l; [exact HR|]. assert (IZR n < IZR n') by (now apply IZR_lt).
    apply Rinv_lt_contravar; [apply Rmult_lt_0_compat; [exact P2|apply pow_lt; lra]|]. nra.
  - cbv zeta. split; [lra|]. intros b HP Hb.
    unfold exciton_hh in H, Hb. destruct (Z.ltb_spec n 1); [lia|]. destruct (Rlt_dec d 0); [lra|]. destruct (Rlt_dec (5 / 10) d); [lra|].
    cbv zeta in H, Hb. cbn [line String.eqb] in H, Hb. unfold binding in *. set (ry := rydberg me mh (eps / vacuum_permittivity)) in *.
    replace (Ee - Eh + - ry / (IZR n - d) ^ 2) with (Ee - Eh - ry / (IZR n - d) ^ 2) in H, Hb by (field; lra).
    set (peak := Ee - Eh - ry / (IZR n - d) ^ 2) in *.
    assert (Ea : a = prefactor nr E * overlap pe ph z * (3 / 2 * m_bulk Ep) * dos_2d (reduced me mh) w * (2 * ry / (IZR n - d) ^ 3) * lorentz E peak s)
      by (apply (f_equal (fun r => match r with Ok v => v | Err _ => 0 end)) in H; symmetry; exact H).
    assert (Eb : b = prefactor nr peak * overlap pe ph z * (3 / 2 * m_bulk Ep) * dos_2d (reduced me mh) w * (2 * ry / (IZR n - d) ^ 3) * lorentz peak peak s)
      by (apply (f_equal (fun r => match r with Ok v => v | Err _ => 0 end)) in Hb; symmetry; exact Hb).
    rewrite Ea, Eb. destruct (C94_lorentz peak s Hs) as (M & _). specialize (M E). pose proof (prefactor_E nr E peak Hnr HE HP) as PE.
    pose proof (overlap_nonneg pe ph z). pose proof (dos_pos _ w (reduced_pos _ _ Hme Hmh) Hw). pose proof (m_bulk_pos Ep HEp).
    assert (HO : 0 < 2 * ry / (IZR n - d) ^ 3) by (apply Rdiv_lt_0_compat; lra). pose proof (prefactor_pos nr E Hnr HE).
    set (k := overlap pe ph z * (3 / 2 * m_bulk Ep) * dos_2d (reduced me mh) w * (2 * ry / (IZR n - d) ^ 3)).
    assert (Hk : 0 <= k) by (unfold k; repeat first [lra|apply Rmult_le_pos]).
    apply (Rle_trans _ (E * prefactor nr E * k * lorentz E peak s)); [unfold k; right; ring|].
    apply (Rle_trans _ (E * prefactor nr E * k * lorentz peak peak s)); [|right; rewrite PE; unfold k; ring].
    apply Rmult_le_compat_l; [|exact M]. apply Rmult_le_pos; [|exact Hk]. apply Rmult_le_pos; lra.
Qed.
End Exciton.
Theorem C94_dimension : forall me mh eps, 0 < me -> 0 < mh -> 0 < eps -> binding me mh eps (1 / 2) 1 = 4 * binding me mh eps 0 1.
Proof. intros me mh eps A B C'. unfold binding. pose proof vacuum_permittivity_pos. field. Qed.

(** * All contributions *)
Lemma parts_all_spec f es ps : parts_all f es = Ok ps -> Forall2 (fun e p => f e = Ok p) es ps.
Proof.
  revert ps. induction es as [|e es IH]; intros ps H; cbn [parts_all] in H.
  - injection H as <-. constructor.
  - destruct (f e) as [p|] eqn:E; [|discriminate]. cbn [bindR] in H. destruct (parts_all f es) as [ps'|] eqn:E'; [|discriminate].
    cbn [bindR] in H. injection H as <-. constructor; auto.
Qed.
Lemma sum_excitons_nonneg ex : (forall n e p h p' a, (1 <= n)%Z -> ex n e p h p' = Ok a -> 0 <= a) ->
  forall Ee Eh pe ph i a r, (0 <= i)%Z -> 0 <= a -> sum_excitons ex i Ee Eh pe ph a = Ok r -> 0 <= r.
Proof.
  intros HX. induction Ee as [|e Ee IH]; intros Eh pe ph i a r Hi Ha H; cbn [sum_excitons] in H; [congruence|].
  destruct Eh as [|h Eh]; [congruence|]. destruct pe as [|p pe]; [discriminate|]. destruct ph as [|p' ph]; [discriminate|].
  destruct (ex (i + 1)%Z e p h p') as [x|] eqn:E; [|discriminate]. cbn [bindR] in H. apply HX in E; [|lia].
  apply IH in H; [exact H|lia|lra].
Qed.
Lemma exciton_nonneg me mh Ep nr w eps s d shape n E z Ee Eh pe ph a :
  0 < me -> 0 < mh -> 0 < Ep -> 0 < nr -> 0 < w -> 0 < eps -> 0 < s -> 0 < E -> (1 <= n)%Z ->
  (exciton_hh n E z Ee Eh pe ph w me mh Ep nr eps s d shape = Ok a -> 0 <= a) /\
  (exciton_lh n E z Ee Eh pe ph w me mh Ep nr eps s d shape = Ok a -> 0 <= a).
Proof.
  intros H1 H2 H3 H4 H5 H6 H7 HE Hn.
  destruct (Rlt_dec d 0) as [L|L]; [|destruct (Rlt_dec (1 / 2) d) as [L'|L']].
  - destruct (C94_exciton_args me mh Ep nr w eps s d H1 H2 H3 H4 H5 H6 H7 n E z Ee Eh pe ph shape) as (A & _).
    destruct (A (or_intror (or_introl L))) as [-> ->]. split; discriminate.
  - destruct (C94_exciton_args me mh Ep nr w eps s d H1 H2 H3 H4 H5 H6 H7 n E z Ee Eh pe ph shape) as (A & _).
    destruct (A (or_intror (or_intror L'))) as [-> ->]. split; discriminate.
  - destruct (C94_exciton_args me mh Ep nr w eps s d H1 H2 H3 H4 H5 H6 H7 n E z Ee Eh pe ph shape) as (_ & A).
    destruct (A Hn ltac:(lra) HE) as (x & -> & -> & Hx & _). split; intros E'; [assert (a = x) by congruence|assert (a = x / 3) by congruence]; lra.
Qed.
(** The masses used are the ones at the middle of the structure: those along the growth direction
    if both tables are there, else those in the plane. *)
Lemma round_half_bounds n : (1 <= n)%nat -> (round_half n < n)%nat /\ (2 * round_half n <= n + 1)%nat /\ (n <= 2 * round_half n + 1)%nat.
Proof.
  intros Hn. unfold round_half. pose proof (Nat.div_mod n 2 ltac:(lia)) as D. pose proof (Nat.mod_upper_bound n 2 ltac:(lia)) as M.
  destruct (Nat.even n) eqn:E.
  - apply Nat.even_spec in E as [k ->]. replace (2 * k)%nat with (k * 2)%nat by lia. rewrite Nat.div_mul by lia. lia.
  - assert (O : Nat.odd n = true) by (unfold Nat.odd; now rewrite E). apply Nat.odd_spec in O as [k ->].
    assert (K : ((2 * k + 1) / 2 = k)%nat) by (replace (2 * k + 1)%nat with (1 + k * 2)%nat by lia; rewrite Nat.div_add by lia; reflexivity).
    rewrite K. destruct (Nat.even k) eqn:E'; [lia|]. destruct k; [discriminate|lia].
Qed.
Theorem C94_masses : forall r, (1 <= length (qm_me r))%nat ->
  exists i, (i < length (qm_me r))%nat /\ (2 * i <= length (qm_me r) + 1)%nat /\ (length (qm_me r) <= 2 * i + 1)%nat /\
    forall a b, length a = length (qm_me r) -> length b = length (qm_me r) ->
      (qm_mhh r = Some a -> qm_mlh r = Some b -> masses r = Ok (nth i (qm_me r) 0, nth i a 0, nth i b 0)) /\
      ((qm_mhh r = None \/ qm_mlh r = None /\ (forall l, qm_mhh r = Some l -> length l = length (qm_me r))) ->
         qm_mhh_t r = Some a -> qm_mlh_t r = Some b -> masses r = Ok (nth i (qm_me r) 0, nth i a 0, nth i b 0)).
Proof.
  intros r Hr. destruct (round_half_bounds _ Hr) as (B1 & B2 & B3). exists (round_half (length (qm_me r))). repeat (split; [assumption|]).
  assert (N : forall l, length l = length (qm_me r) -> nthR l (round_half (length (qm_me r))) = Ok (nth (round_half (length (qm_me r))) l 0)).
  { intros l Hl. unfold nthR. rewrite (nth_error_nth' l 0) by (rewrite Hl; exact B1). reflexivity. }
  intros a b Ha Hb. unfold masses. rewrite (N _ eq_refl). cbn [bindR]. split.
  - intros E1 E2. rewrite E1, E2. cbn [table]. rewrite (N a Ha), (N b Hb). reflexivity.
  - intros HN E1 E2. destruct HN as [E|[E HL]].
    + rewrite E. cbn [table bindR]. rewrite E1, E2. cbn [table]. rewrite (N a Ha), (N b Hb). reflexivity.
    + rewrite E. destruct (qm_mhh r) as [l|] eqn:EL; cbn [table bindR].
      * rewrite (N l (HL l eq_refl)). cbn [bindR]. rewrite E1, E2. cbn [table]. rewrite (N a Ha), (N b Hb). reflexivity.
      * rewrite E1, E2. cbn [table]. rewrite (N a Ha), (N b Hb). reflexivity.
Qed.
Section Total.
Context (Ep nr w eps s d theta : R) (HEp : 0 < Ep) (Hnr : 0 < nr) (Hw : 0 < w) (Heps : 0 < eps) (Hs : 0 < s).
(** Everything is non-negative and has the length of the energies; the sum is that of the two
    polarisations. Light along the growth direction sees the plane only, and light in the plane
    half of either; perpendicular to the plane only light holes absorb, four times as much. *)
Theorem C94_total : forall r es shape al me mhh mlh, masses r = Ok (me, mhh, mlh) -> 0 < me -> 0 < mhh -> 0 < mlh ->
  Forall (fun e => 0 < e) es -> calc_alpha r w Ep nr s d theta eps (Some es) shape = Ok al ->
  al_E al = es /\ length (al_sum al) = length es /\ length (al_TE al) = length es /\ length (al_TM al) = length es /\
  length (al_TE_raw al) = length es /\ length (al_TM_raw al) = length es /\
  forall i, (i < length es)%nat ->
    0 <= nth i (al_TE_raw al) 0 /\ 0 <= nth i (al_TM_raw al) 0 <= 4 * nth i (al_TE_raw al) 0 /\
    nth i (al_sum al) 0 = nth i (al_TE al) 0 + nth i (al_TM al) 0 /\
    0 <= nth i (al_TE al) 0 <= nth i (al_TE_raw al) 0 /\ 0 <= nth i (al_TM al) 0 /\
    (theta = 0 -> nth i (al_TM al) 0 = 0 /\ nth i (al_sum al) 0 = nth i (al_TE_raw al) 0) /\
    (theta = PI / 2 -> nth i (al_sum al) 0 = (nth i (al_TE_raw al) 0 + nth i (al_TM_raw al) 0) / 2) /\
    (qm_Elh r = [] -> nth i (al_TM_raw al) 0 = 0 /\ nth i (al_TM al) 0 = 0).
Proof.
  intros r es shape al me mhh mlh HM Hme Hhh Hlh HE H. unfold calc_alpha in H. rewrite HM in H. cbn [bindR fst snd] in H.
  destruct (parts_all _ es) as [ps|] eqn:EP in H; [|discriminate]. cbn [bindR] in H.
  assert (EA : al = AlphaResult es (map (fun p => te theta p + tm theta p) ps) (map (te theta) ps) (map (tm theta) ps) (map te_raw ps) (map tm_raw ps)) by congruence.
  apply parts_all_spec in EP. assert (EL : length ps = length es) by (clear - EP; induction EP; cbn; congruence).
  rewrite EA. cbn [al_E al_sum al_TE al_TM al_TE_raw al_TM_raw]. rewrite !map_length. repeat (split; [first [reflexivity|exact EL]|]).
  intros i Hi. set (p0 := Parts 0 0 0 0).
  assert (Z : te_raw p0 = 0 /\ tm_raw p0 = 0) by (unfold te_raw, tm_raw, p0; cbn [p_hh p_lh p_xhh p_xlh]; split; ring). destruct Z as [Z1 Z2].
  assert (NT : forall f : parts -> R, nth i (map f ps) 0 = f (nth i ps p0)).
  { intros f. rewrite (nth_indep _ 0 (f p0)) by (rewrite map_length; lia). apply map_nth. }
  rewrite !NT. set (p := nth i ps p0).
  assert (HP : parts_at r w me mhh mlh Ep nr eps s d shape (nth i es 0) = Ok p).
  { unfold p. clear p NT. clearbody p0. clear - EP Hi. revert i Hi.
    induction EP as [|e q' es' ps' H F IH]; intros [|i] Hi; cbn [length] in Hi; try lia; cbn [nth]; [exact H|]. apply IH. lia. }
  assert (HEi : 0 < nth i es 0) by (rewrite Forall_forall in HE; apply HE, nth_In; exact Hi). set (E := nth i es 0) in *.
  unfold parts_at in HP. destruct (sum_exciton_hh _ _ _ _ _ _ _ _ _ _ _ _ _ _ _) as [xh|] eqn:EX in HP; [|discriminate]. cbn [bindR] in HP.
  destruct (sum_exciton_lh _ _ _ _ _ _ _ _ _ _ _ _ _ _ _) as [xl|] eqn:EY in HP; [|discriminate]. cbn [bindR] in HP.
  assert (HX : 0 <= xh).
  { unfold sum_exciton_hh in EX. apply sum_excitons_nonneg in EX; [exact EX| |lia|lra]. intros n e p1 h p2 a Hn HH.
    exact (proj1 (exciton_nonneg me mhh Ep nr w eps s d shape n E (qm_x r) e h p1 p2 a Hme Hhh HEp Hnr Hw Heps Hs HEi Hn) HH). }
  assert (HY : 0 <= xl).
  { unfold sum_exciton_lh in EY. apply sum_excitons_nonneg in EY; [exact EY| |lia|lra]. intros n e p1 h p2 a Hn HH.
    exact (proj2 (exciton_nonneg me mlh Ep nr w eps s d shape n E (qm_x r) e h p1 p2 a Hme Hlh HEp Hnr Hw Heps Hs HEi Hn) HH). }
  assert (HA : 0 <= p_hh p).
  { injection HP as <-. cbn [p_hh]. apply (C94_staircase me mhh Ep nr w Hme Hhh HEp Hnr Hw); exact HEi. }
  assert (HB : 0 <= p_lh p).
  { injection HP as <-. cbn [p_lh]. destruct (C94_staircase me mlh Ep nr w Hme Hlh HEp Hnr Hw (qm_x r) (qm_Ee r) (qm_Elh r) (qm_pe r) (qm_plh r)) as (_ & _ & _ & A & B).
    specialize (A E HEi). rewrite B in A. lra. }
  assert (HXp : p_xhh p = xh) by (injection HP as <-; reflexivity). assert (HYp : p_xlh p = xl) by (injection HP as <-; reflexivity).
  assert (T1 : 0 <= te_raw p) by (unfold te_raw; lra). assert (T2 : 0 <= tm_raw p <= 4 * te_raw p) by (unfold te_raw, tm_raw; lra).
  pose proof (sin2_cos2 theta) as SC. unfold Rsqr in SC. assert (C0 : 0 <= cos theta ^ 2) by apply pow2_ge_0. assert (S0 : 0 <= sin theta ^ 2) by apply pow2_ge_0.
  assert (SC' : sin theta ^ 2 + cos theta ^ 2 = 1) by (cbn [pow]; lra).
  split; [exact T1|]. split; [exact T2|]. split; [reflexivity|].
  split. { unfold te. split; [apply Rmult_le_pos; lra|]. rewrite <- (Rmult_1_r (te_raw p)) at 2. apply Rmult_le_compat_l; lra. }
  split. { unfold tm. apply Rmult_le_pos; lra. }
  split. { intros ->. unfold te, tm. rewrite sin_0, cos_0. split; ring. }
  split. { intros ->. unfold te, tm. rewrite sin_PI2, cos_PI2. field. }
  intros EE. assert (T0 : tm_raw p = 0).
  { unfold tm_raw. rewrite HYp. unfold sum_exciton_lh in EY. rewrite EE in EY.
    assert (Hxl : xl = 0) by (destruct (qm_Ee r); cbn [sum_excitons] in EY; congruence).
    assert (Hpl : p_lh p = 0).
    { injection HP as <-. cbn [p_lh]. unfold sum_lh. rewrite sum_pairs_total, EE. apply total_zero. intros [e p'] _. reflexivity. }
    rewrite Hxl, Hpl. ring. }
  split; [exact T0|]. unfold tm. rewrite T0. ring.
Qed.
(** Without energies the function cannot be used, although they have a default. *)
Theorem C94_default_refuted : forall r shape m, masses r = Ok m -> calc_alpha r w Ep nr s d theta eps None shape = Err TypeError.
Proof. intros r shape m H. unfold calc_alpha. rewrite H. reflexivity. Qed.
End Total.

(** * Emission *)
Lemma non_black_body_pos E v nr T : 0 < E -> 0 < nr -> 0 < T -> q * v < E -> 0 < non_black_body E v nr T.
Proof.
  intros HE Hn HT Hv. unfold non_black_body. pose proof h_pos. pose proof c_pos. pose proof kb_pos.
  assert (0 < (E - q * v) / kb / T) by (repeat apply Rdiv_lt_0_compat; lra). pose proof (exp_ineq1 ((E - q * v) / kb / T) ltac:(lra)).
  apply Rdiv_lt_0_compat; [|lra]. pos.
Qed.
(** Emission is never negative, and for either polarisation at most that of the black body inside
    the semiconductor; a thicker well emits more. *)
Theorem C94_emission : forall E a w w' theta, 0 < E -> 0 <= a -> 0 <= w <= w' ->
  let bb := non_black_body E 0 (35 / 10) 300 in
  0 <= emission_te w theta E a <= bb /\ 0 <= emission_tm w theta E a <= bb /\
  emission_te w theta E a <= emission_te w' theta E a /\ emission_tm w theta E a <= emission_tm w' theta E a /\
  (theta = 0 -> emission_tm w theta E a = 0).
Proof.
  intros E a w w' theta HE Ha Hw bb. assert (HB : 0 < bb) by (apply non_black_body_pos; pose proof q_pos; lra).
  assert (S0 : 0 <= sin theta ^ 2) by apply pow2_ge_0. assert (C0 : 0 <= cos theta ^ 2) by apply pow2_ge_0.
  assert (G : forall x, 0 <= x -> 0 <= 1 - exp (- x) <= 1).
  { intros x Hx. pose proof (exp_pos (- x)). assert (exp (- x) <= 1). { destruct (Req_dec x 0) as [->|N]; [rewrite Ropp_0, exp_0; lra|].
      left. rewrite <- exp_0. apply exp_increasing. lra. } lra. }
  assert (M : forall x y, x <= y -> 1 - exp (- x) <= 1 - exp (- y)).
  { intros x y Hxy. destruct (Req_dec x y) as [->|N]; [lra|]. assert (exp (- y) < exp (- x)) by (apply exp_increasing; lra). lra. }
  unfold emission_te, emission_tm. fold bb. set (ft := cos theta ^ 2 + 5 / 10 * sin theta ^ 2). assert (Hft : 0 <= ft) by (unfold ft; lra).
  assert (K : forall u, 0 <= u -> 0 <= a * u * ft /\ 0 <= a * u * (5 / 10) * sin theta ^ 2) by (intros u Hu; split; repeat first [lra|apply Rmult_le_pos]).
  replace (- a * w * ft) with (- (a * w * ft)) by ring. replace (- a * w' * ft) with (- (a * w' * ft)) by ring.
  replace (- a * w * (5 / 10) * sin theta ^ 2) with (- (a * w * (5 / 10) * sin theta ^ 2)) by ring.
  replace (- a * w' * (5 / 10) * sin theta ^ 2) with (- (a * w' * (5 / 10) * sin theta ^ 2)) by ring.
  destruct (K w ltac:(lra)) as [K1 K2]. destruct (K w' ltac:(lra)) as [K3 K4].
  assert (Q1 : a * w * ft <= a * w' * ft) by (apply Rmult_le_compat_r; [exact Hft|]; apply Rmult_le_compat_l; lra).
  assert (Q2 : a * w * (5 / 10) * sin theta ^ 2 <= a * w' * (5 / 10) * sin theta ^ 2).
  { apply Rmult_le_compat_r; [exact S0|]. apply Rmult_le_compat_r; [lra|]. apply Rmult_le_compat_l; lra. }
  split. { destruct (G _ K1). split; [apply Rmult_le_pos; lra|]. rewrite <- (Rmult_1_r bb) at 2. apply Rmult_le_compat_l; lra. }
  split. { destruct (G _ K2). split; [apply Rmult_le_pos; lra|]. rewrite <- (Rmult_1_r bb) at 2. apply Rmult_le_compat_l; lra. }
  split. { apply Rmult_le_compat_l; [lra|]. now apply M. }
  split. { apply Rmult_le_compat_l; [lra|]. now apply M. }
  intros ->. rewrite sin_0. replace (- (a * w * (5 / 10) * 0 ^ 2)) with 0 by ring. rewrite exp_0. ring.
Qed.
(** The voltage, which is said to drive the emission, is not used. *)
Theorem C94_voltage_refuted : exists E v, 0 < E /\ 0 < v /\ q * v < E /\
  non_black_body E 0 (35 / 10) 300 < non_black_body E v (35 / 10) 300 /\
  forall al w theta, calc_emission al w v theta = calc_emission al w 0 theta.
Proof.
  pose proof q_pos as Hq. exists (2 * q), 1. split; [lra|]. split; [lra|]. split; [lra|]. split; [|reflexivity].
  unfold non_black_body. pose proof h_pos. pose proof c_pos. pose proof kb_pos as Hk.
  assert (P : forall v, 2 * q - q * v > 0 -> 0 < exp ((2 * q - q * v) / kb / 300) - 1).
  { intros v Hv. assert (0 < (2 * q - q * v) / kb / 300) by (repeat apply Rdiv_lt_0_compat; lra).
    pose proof (exp_ineq1 ((2 * q - q * v) / kb / 300) ltac:(lra)). lra. }
  unfold Rdiv at 1 6. apply Rmult_lt_compat_l; [pos|]. apply Rinv_lt_contravar.
  - apply Rmult_lt_0_compat; apply P; lra.
  - apply Rplus_lt_compat_r. apply exp_increasing. unfold Rdiv. assert (0 < / kb) by (now apply Rinv_0_lt_compat).
    repeat (apply Rmult_lt_compat_r; [lra|]). lra.
Qed.

(** * Examples *)
(** Two levels of electrons and one of holes on three points. *)
Definition some_qm : qm_result :=
  QM [0; 1; 2] [2; 3] [-1] [-2] [[0; 1; 0]; [1; 0; 1]] [[0; 1; 0]] [[1; 0; 1]] [1; 1; 2] (Some [3; 3; 4]) (Some [5; 5; 6]) None None.
Example C94_example : masses some_qm = Ok (2, 4, 6) /\ normalised [0; 1; 0] [0; 1; 2] /\ normalised [1; 0; 1] [0; 1; 2] /\ nondecreasing [0; 1; 2] /\
  (exists al, calc_alpha some_qm 1 1 1 1 (2 / 10) 0 1 (Some [1; 2]) "Gauss" = Ok al /\ length (al_sum al) = 2%nat) /\
  overlap [0; 1; 0] [0; 1; 0] [0; 1; 2] = 1.
Proof.
  assert (N : nondecreasing [0; 1; 2]).
  { intros i j Hij. cbn [length] in Hij. destruct i as [|[|[|i]]], j as [|[|[|j]]]; cbn; try lra; lia. }
  assert (N1 : normalised [0; 1; 0] [0; 1; 2]) by (split; [reflexivity|cbn; lra]).
  split; [reflexivity|]. split; [exact N1|]. split; [split; [reflexivity|cbn; lra]|]. split; [exact N|]. split.
  - unfold calc_alpha. change (masses some_qm) with (Ok (2, 4, 6)). cbn [bindR fst snd parts_all].
    assert (P : forall E, is_ok (parts_at some_qm 1 2 4 6 1 1 1 1 (2 / 10) "Gauss" E) = true).
    { intros E. unfold parts_at, sum_exciton_hh, sum_exciton_lh. cbn [some_qm qm_x qm_Ee qm_Ehh qm_Elh qm_pe qm_phh qm_plh sum_excitons].
      unfold exciton_hh, exciton_lh. change ((0 + 1 <? 1)%Z) with false. cbv iota.
      destruct (Rlt_dec (2 / 10) 0); [lra|]. destruct (Rlt_dec (5 / 10) (2 / 10)); [lra|]. reflexivity. }
    pose proof (P 1) as P1. pose proof (P 2) as P2. destruct (parts_at some_qm 1 2 4 6 1 1 1 1 (2 / 10) "Gauss" 1); [|discriminate].
    destruct (parts_at some_qm 1 2 4 6 1 1 1 1 (2 / 10) "Gauss" 2); [|discriminate]. cbn [bindR]. eexists. split; reflexivity.
  - apply (C94_overlap _ [0; 1; 0]); assumption.
Qed.
(** Rydberg energy and Bohr radius are those of hydrogen with the reduced mass in the medium. *)
Theorem C94_hydrogen : forall me mh eps_r mr, 0 < me -> 0 < mh -> 0 < eps_r -> 0 < mr -> 1 / mr = 1 / me + 1 / mh ->
  let eps := eps_r * vacuum_permittivity in let a := bohr_radius me mh eps in
  a = 4 * PI * eps * hbar ^ 2 / (mr * q ^ 2) /\ rydberg me mh eps_r = q ^ 2 / (8 * PI * eps * a) /\ rydberg me mh eps_r = hbar ^ 2 / (2 * mr * a ^ 2).
Proof.
  intros me mh eps_r mr H1 H2 H3 H4 E eps a. pose proof PI_RGT_0. pose proof vacuum_permittivity_pos. pose proof hbar_pos. pose proof q_pos.
  assert (ER : reduced me mh = mr).
  { unfold reduced. assert (EI : 1 / mr = (me + mh) / (me * mh)) by (rewrite E; field; lra).
    assert (EM : mr = 1 / (1 / mr)) by (field; lra). rewrite EM, EI. field. repeat split; lra. }
  assert (EA : a = 4 * PI * eps * hbar ^ 2 / (mr * q ^ 2)) by (unfold a, bohr_radius; rewrite ER; field; split; lra).
  split; [exact EA|]. rewrite EA. unfold rydberg. rewrite ER. unfold eps. split; field; repeat split; lra.
Qed.
(** The Gaussian has its highest value at its centre, that of a normal distribution with half the
    parameter as standard deviation. *)
Theorem C94_gauss : forall ce s, 0 < s ->
  gauss ce ce s = 1 / (s / 2 * sqrt (2 * PI)) /\ (forall x, gauss x ce s <= gauss ce ce s) /\
  forall x, gauss x ce s = gauss ce ce s * exp (- ((x - ce) / (s / 2)) ^ 2 / 2).
Proof.
  intros ce s Hs. pose proof PI_RGT_0. assert (0 < sqrt (2 * PI)) by (apply sqrt_lt_R0; lra).
  assert (EC : gauss ce ce s = 1 / (s / 2 * sqrt (2 * PI))).
  { unfold gauss. replace (- (5 / 10) * (ce - ce) ^ 2 / (5 / 10 * s) ^ 2) with 0 by (field; lra). rewrite exp_0. field. split; lra. }
  assert (EG : forall x, gauss x ce s = gauss ce ce s * exp (- ((x - ce) / (s / 2)) ^ 2 / 2)).
  { intros x. rewrite EC. unfold gauss. replace (- (5 / 10) * (x - ce) ^ 2 / (5 / 10 * s) ^ 2) with (- ((x - ce) / (s / 2)) ^ 2 / 2) by (field; lra). field. split; lra. }
  split; [exact EC|]. split; [|exact EG]. intros x. rewrite (EG x). rewrite <- (Rmult_1_r (gauss ce ce s)) at 2. apply Rmult_le_compat_l.
  - rewrite EC. left. apply Rdiv_lt_0_compat; [lra|]. apply Rmult_lt_0_compat; lra.
  - rewrite <- exp_0. destruct (Req_dec ((x - ce) / (s / 2)) 0) as [Z|Z]; [rewrite Z; right; f_equal; field|]. left. apply exp_increasing.
    set (z := (x - ce) / (s / 2)) in *. assert (0 < z * z) by nra. replace (- z ^ 2 / 2) with (- (z * z) / 2) by (field). lra.
Qed.
(** The excitons: the k-th electron with the k-th hole, index k, all added up. *)
Lemma sum_excitons_total ex : forall Ee Eh pe ph i a r, sum_excitons ex i Ee Eh pe ph a = Ok r ->
  exists xs, length xs = Nat.min (length Ee) (length Eh) /\ r = a + total xs /\
    forall k, (k < length xs)%nat -> ex (i + Z.of_nat k + 1)%Z (nth k Ee 0) (nth k pe []) (nth k Eh 0) (nth k ph []) = Ok (nth k xs 0).
Proof.
  induction Ee as [|e Ee IH]; intros Eh pe ph i a r H; cbn [sum_excitons] in H.
  - exists []. split; [reflexivity|]. split; [assert (a = r) by congruence; subst; cbn; ring|]. intros k Hk. cbn in Hk. lia.
  - destruct Eh as [|h Eh]; [exists []; split; [reflexivity|]; split; [assert (a = r) by congruence; subst; cbn; ring|]; intros k Hk; cbn in Hk; lia|].
    destruct pe as [|p pe]; [discriminate|]. destruct ph as [|p' ph]; [discriminate|]. destruct (ex (i + 1)%Z e p h p') as [x|] eqn:E; [|discriminate]. cbn [bindR] in H.
    destruct (IH _ _ _ _ _ _ H) as (xs & A & B & C). exists (x :: xs). split; [cbn [length Nat.min]; now rewrite A|]. split; [rewrite B; unfold total; cbn [fold_right]; ring|].
    intros [|k] Hk; cbn [nth]; [replace (i + Z.of_nat 0 + 1)%Z with (i + 1)%Z by lia; exact E|]. cbn [length] in Hk. rewrite <- (C k) by lia. f_equal. lia.
Qed.
Theorem C94_excitons : forall E z Ee Eh pe ph w me mh Ep nr eps hwhm d shape,
  (forall r, sum_exciton_hh E z Ee Eh pe ph w me mh Ep nr eps hwhm d shape = Ok r ->
    exists xs, length xs = Nat.min (length Ee) (length Eh) /\ r = total xs /\ forall k, (k < length xs)%nat ->
      exciton_hh (Z.of_nat k + 1) E z (nth k Ee 0) (nth k Eh 0) (nth k pe []) (nth k ph []) w me mh Ep nr eps hwhm d shape = Ok (nth k xs 0)) /\
  (forall r, sum_exciton_lh E z Ee Eh pe ph w me mh Ep nr eps hwhm d shape = Ok r ->
    exists xs, length xs = Nat.min (length Ee) (length Eh) /\ r = total xs /\ forall k, (k < length xs)%nat ->
      exciton_lh (Z.of_nat k + 1) E z (nth k Ee 0) (nth k Eh 0) (nth k pe []) (nth k ph []) w me mh Ep nr eps hwhm d shape = Ok (nth k xs 0)).
Proof.
  intros. split; intros r H; apply sum_excitons_total in H as (xs & A & B & C); exists xs; (split; [exact A|]); (split; [rewrite B; ring|]);
    intros k Hk; rewrite <- (C k Hk); f_equal; lia.
Qed.
(** The emission of each polarisation is that of a black body of refractive index 3.5 at 300 K, with
    the absorptance of one pass through the well for that polarisation. *)
Theorem C94_spectrum : forall al w v theta, length (al_TE_raw al) = length (al_E al) -> length (al_TM_raw al) = length (al_E al) ->
  exists all te tm, calc_emission al w v theta = (al_E al, all, te, tm) /\ length all = length (al_E al) /\ length te = length (al_E al) /\ length tm = length (al_E al) /\
  forall i, (i < length (al_E al))%nat -> let E := nth i (al_E al) 0 in
    let black := 2 * (7 / 2) ^ 2 * E ^ 2 / (h ^ 3 * c ^ 2) / (exp (E / (kb * 300)) - 1) in
    nth i te 0 = black * (1 - exp (- (nth i (al_TE_raw al) 0 * w * (1 - sin theta ^ 2 / 2)))) /\
    nth i tm 0 = black * (1 - exp (- (nth i (al_TM_raw al) 0 * w * (sin theta ^ 2 / 2)))) /\
    nth i all 0 = nth i te 0 + nth i tm 0.
Proof.
  intros al w v theta L1 L2. unfold calc_emission. do 3 eexists. split; [reflexivity|].
  assert (NC : forall (f : R * R -> R) a b i, (i < length a)%nat -> (i < length b)%nat -> nth i (map f (combine a b)) 0 = f (nth i a 0, nth i b 0)).
  { intros f. induction a as [|x a IH]; intros [|y b] [|i] Ha Hb; cbn [length] in Ha, Hb; try lia; [reflexivity|]. cbn [combine map nth]. apply IH; lia. }
  split; [rewrite map_length, combine_length, !map_length, !combine_length; lia|]. split; [rewrite map_length, combine_length; lia|]. split; [rewrite map_length, combine_length; lia|].
  intros i Hi. set (E := nth i (al_E al) 0). set (black := 2 * (7 / 2) ^ 2 * E ^ 2 / (h ^ 3 * c ^ 2) / (exp (E / (kb * 300)) - 1)).
  assert (B : non_black_body E 0 (35 / 10) 300 = black).
  { unfold non_black_body, black. replace ((E - q * 0) / kb / 300) with (E / (kb * 300)) by (pose proof kb_pos; field; lra).
    set (D := exp (E / (kb * 300)) - 1). assert (N : 2 * (35 / 10) ^ 2 / h ^ 3 / c ^ 2 * E ^ 2 = 2 * (7 / 2) ^ 2 * E ^ 2 / (h ^ 3 * c ^ 2)) by (pose proof h_pos; pose proof c_pos; field; split; lra).
    now rewrite N. }
  pose proof (sin2_cos2 theta) as SC. unfold Rsqr in SC. rewrite !NC by (rewrite ?map_length, ?combine_length; lia). cbn [fst snd]. unfold emission_te, emission_tm. fold E. rewrite B.
  split; [|split; [|reflexivity]]; f_equal; f_equal; f_equal; [|field].
  replace (cos theta ^ 2) with (1 - sin theta ^ 2) by (cbn [pow]; lra). field.
Qed.

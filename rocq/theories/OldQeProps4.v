(** C179: the light that is assumed and the intrinsic carriers (QE.py:45-56, 213-220). *)
From Coq Require Import Reals String List Arith Bool Lra Lia.
From Verif Require Import Common PhysConst NumModel DetBalProps NpModel InterpModel InterpProps.
From Verif Require Import OldQeModel.
From Coq Require Import List.
Import ListNotations.
Open Scope R_scope.
Open Scope list_scope.

(** Energies asked for are taken, with the spectrum read between its points (or with one photon
    each); otherwise those of the spectrum; without both 450 energies from 0.5 to 3.5 eV. *)
Theorem C179_incoming : forall incident energy, let l := incoming incident energy in
  (forall x, energy = Some x -> map fst l = x /\
     (incident = None -> forall e, In e l -> snd e = 1) /\
     (forall a b, incident = Some (a, b) -> InterpProps.increasing a -> (1 <= length a)%nat ->
        (forall i, (i < length a)%nat -> In (at_ a i) x -> In (at_ a i, at_ b i) l) /\
        (forall e, In e l -> exists i j w, (i < length a)%nat /\ (j < length a)%nat /\ 0 <= w <= 1 /\
           snd e = (1 - w) * at_ b i + w * at_ b j /\
           (at_ a 0 <= fst e <= at_ a (length a - 1) -> fst e = (1 - w) * at_ a i + w * at_ a j)))) /\
  (forall x y, energy = None -> incident = Some (x, y) -> length x = length y -> map fst l = x /\ map snd l = y) /\
  (energy = None -> incident = None -> length l = 450%nat /\
     forall i, (i < 450)%nat -> nth i l (0, 0) = ((5 / 10 + 3 * INR i / 449) * q, 1)).
Proof.
  intros incident energy l. split; [|split].
  - intros x ->. unfold l, incoming. split; [destruct incident as [[a b]|]; rewrite map_map; apply map_id|]. split.
    + intros -> e He. apply in_map_iff in He. destruct He as (y & <- & _). reflexivity.
    + intros a b -> Ha La. split.
      * intros i Hi Hx. apply in_map_iff. exists (at_ a i). split; [now rewrite np_interp_node|exact Hx].
      * intros e He. apply in_map_iff in He. destruct He as (y & <- & _). cbn [fst snd].
        destruct (np_interp_weights a y (increasing_nondecreasing a Ha) La) as (i & j & w & Hi & Hj & _ & Hw & E & V & _).
        exists i, j, w. split; [exact Hi|]. split; [exact Hj|]. split; [exact Hw|]. split; [apply E|intros H; symmetry; now apply V].
  - intros x y -> -> H. unfold l, incoming. clear l. revert y H. induction x as [|a x IH]; intros [|b y] H; try discriminate H; [split; reflexivity|].
    cbn [combine map fst snd]. injection H as H. destruct (IH y H) as [-> ->]. split; reflexivity.
  - intros -> ->. unfold l, incoming. rewrite map_length, linspace_length. split; [reflexivity|]. intros i Hi.
    rewrite (nth_indep _ (0, 0) (0 * q, 1)) by (rewrite map_length, linspace_length; exact Hi).
    rewrite (map_nth (fun e => (e * q, 1))), linspace_nth by exact Hi. f_equal. f_equal.
    replace (INR (450 - 1)) with 449 by (rewrite INR_IZR_INZ; reflexivity). field.
Qed.

(** The square of the intrinsic density is the product of the densities of states of electrons
    and holes with the Boltzmann factor of the gap. *)
Theorem C179_intrinsic : forall j g V p, parameters j g V = Ok p ->
  let mn := ql_mat (g_n g) in let mp := ql_mat (g_p g) in
  0 < qm_T mn -> 0 < qm_me mp -> 0 < qm_mh mn ->
  0 < r_ni2 p /\
  (r_ni2 p * exp (qm_gap mn / (kb * qm_T mn))) ^ 2 =
    16 * (electron_mass * kb * qm_T mn / (2 * PI * hbar ^ 2)) ^ 6 * (qm_me mp * qm_mh mn) ^ 3.
Proof.
  intros j g V p H mn mp HT He Hh. unfold parameters in H. cbv zeta in H.
  destruct (attribute (qm_Na (ql_mat (g_p g)))) as [Na|]; [|discriminate H]. cbn [bindR] in H.
  destruct (attribute (qm_Nd (ql_mat (g_n g)))) as [Nd|]; [|discriminate H]. cbn [bindR] in H.
  injection H as <-. cbn [r_ni2]. fold mn mp.
  assert (P := electron_mass_pos). assert (K := kb_pos). assert (HB := hbar_pos). assert (PP := PI_RGT_0).
  set (u := electron_mass * kb * qm_T mn / (2 * PI * hbar ^ 2)).
  assert (U : 0 < u).
  { unfold u. apply Rdiv_lt_0_compat; [repeat apply Rmult_lt_0_compat; assumption|]. apply Rmult_lt_0_compat; [lra|apply pow_lt; exact HB]. }
  assert (D : forall m, dos m (qm_T mn) = 2 * ((m * u) * sqrt (m * u))).
  { intros m. unfold dos. cbv zeta. replace (m * electron_mass * kb * qm_T mn / (2 * PI * hbar ^ 2)) with (m * u) by (unfold u; field; split; lra). reflexivity. }
  rewrite !D. assert (A : 0 < qm_me mp * u) by now apply Rmult_lt_0_compat. assert (B : 0 < qm_mh mn * u) by now apply Rmult_lt_0_compat.
  assert (SA := sqrt_lt_R0 _ A). assert (SB := sqrt_lt_R0 _ B). assert (QA := sqrt_sqrt _ (Rlt_le _ _ A)). assert (QB := sqrt_sqrt _ (Rlt_le _ _ B)).
  split.
  - apply Rmult_lt_0_compat; [|apply exp_pos]. apply Rmult_lt_0_compat; (apply Rmult_lt_0_compat; [lra|now apply Rmult_lt_0_compat]).
  - replace (- qm_gap mn / (kb * qm_T mn)) with (- (qm_gap mn / (kb * qm_T mn))) by (unfold Rdiv; ring).
    rewrite exp_Ropp. set (E := exp _). assert (0 < E) by apply exp_pos. rewrite Rmult_assoc, Rinv_l, Rmult_1_r by lra.
    set (sa := sqrt (qm_me mp * u)) in *. set (sb := sqrt (qm_mh mn * u)) in *.
    transitivity (16 * (qm_me mp * u) ^ 2 * (qm_mh mn * u) ^ 2 * (sa * sa) * (sb * sb)); [ring|]. rewrite QA, QB. ring.
Qed.
(** A junction of a material with the masses 0.067 and 0.5. *)
Definition ex_mat (Na Nd : option R) : qmat := QM 300 (14 / 10 * q) 13 1 1 1 1 (5 / 10) (67 / 1000) Na Nd (fun _ => 1).
Example C179_intrinsic_ex : is_ok (parameters (QJ [] None None None None None None None None false None None)
  (Regions true (QL 1 "emitter" (ex_mat None (Some 1))) None (QL 1 "base" (ex_mat (Some 1) None))) 0) = true.
Proof. reflexivity. Qed.

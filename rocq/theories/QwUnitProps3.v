(** Proofs about QwUnitModel: densities of states (C169), absorption (C170). *)
From Coq Require Import Reals String List Bool Arith Lra Lia Psatz.
From Verif Require Import Common PhysConst NpModel InterpModel InterpProps DetBalModel QwUnitModel QwUnitProps QwUnitProps2.
From Coq Require Import List.
Import ListNotations.
Open Scope R_scope.
Open Scope list_scope.

Definition total (l : list R) : R := fold_right Rplus 0 l.
(** Materials of a unit; all different. *)
Definition materials (u : qw_unit) (hp : heap) : list nat := map (fun i => l_material (layers hp i)) (u_layers u).
Lemma rpow_pos b e : 0 <= rpow b e.
Proof. unfold rpow. destruct (Req_EM_T b 0); [lra|]. unfold Rpower. left. apply exp_pos. Qed.
Lemma fold_plus {A} (f : A -> R) l : forall a, fold_left (fun a t => a + f t) l a = a + total (map f l).
Proof. induction l as [|x l IH]; intros a; cbn; [ring|]. rewrite IH. unfold total. ring. Qed.
Lemma total_cons x l : total (x :: l) = x + total l. Proof. reflexivity. Qed.
Lemma total_nonneg l : (forall x, In x l -> 0 <= x) -> 0 <= total l.
Proof. induction l as [|x l IH]; intros H; [cbn; lra|]. rewrite total_cons. assert (0 <= x) by (apply H; now left). assert (0 <= total l) by (apply IH; intros y Hy; apply H; now right). lra. Qed.

(** * C169 *)
Section States.
Context (erfc : R -> R).
(** What the levels put into layer [k]: every level by its occupation and the part of its state that
    is in the layer. *)
Definition states (b : R) (s : solution) (ws : list R) (lv : list R) (psi : list (list R)) (k : nat) : R :=
  total (map (fun t => exp (- b * fst t) * nth k (probabilities (s_x s) (map (fun v => v ^ 2) (snd t)) 0 ws) 0) (combine lv psi)).
Lemma confined_states b s ws lv psi k : confined b lv (probs s ws psi) k = states b s ws lv psi k.
Proof.
  unfold confined, states, probs. rewrite (fold_plus (fun t => exp (- b * fst t) * nth k (snd t) 0)), Rplus_0_l. f_equal.
  revert psi. induction lv as [|e lv IH]; intros [|p psi]; cbn [combine map fst snd]; try reflexivity. f_equal. apply IH.
Qed.
Definition dos_item (u : qw_unit) (s : solution) (hp : heap) (xb egb : R) (ws : list R) (t : nat * nat) (m : mat) : mat :=
  let l := layers hp (snd t) in let b := q / (kb * u_T u) in let lv := levels_of s in
  set_dos (dos_e erfc b m (l_width l) (l_affinity l - xb) (confined b (lv_e lv) (probs s ws (s_psi_e s)) (fst t)))
          (dos_h erfc b m (l_width l) (xb + egb - l_affinity l - l_gap l)
             (confined b (lv_hh lv) (probs s ws (s_psi_hh s)) (fst t)) (confined b (lv_lh lv) (probs s ws (s_psi_lh s)) (fst t))) m.
Lemma dos_loop u s xb egb ws ts : forall hp,
  mats (fold_left (dos_step erfc u s xb egb ws) ts hp) = fold_left (change (fun t => l_material (layers hp (snd t))) (dos_item u s hp xb egb ws)) ts (mats hp) /\
  layers (fold_left (dos_step erfc u s xb egb ws) ts hp) = layers hp.
Proof.
  induction ts as [|t ts IH]; intros hp; cbn [fold_left]; [split; reflexivity|]. destruct (IH (dos_step erfc u s xb egb ws hp t)) as (I1 & I2).
  assert (EL : layers (dos_step erfc u s xb egb ws hp t) = layers hp) by reflexivity. rewrite I1, I2, EL. split; [|reflexivity].
  assert (EI : dos_item u s (dos_step erfc u s xb egb ws hp t) xb egb ws = dos_item u s hp xb egb ws) by reflexivity. rewrite EI. reflexivity.
Qed.
Lemma item_in (ids : list nat) k : (k < length ids)%nat -> In (k, nth k ids 0%nat) (combine (seq 0 (length ids)) ids).
Proof.
  intros H. apply (nth_error_In _ k). apply nth_error_combine; [|now apply nth_error_in_range].
  rewrite (nth_error_in_range _ k 0%nat) by (rewrite seq_length; exact H). now rewrite seq_nth.
Qed.
Lemma items_materials u hp : map (fun t : nat * nat => l_material (layers hp (snd t))) (combine (seq 0 (length (u_layers u))) (u_layers u)) = materials u hp.
Proof.
  unfold materials. rewrite <- (map_map snd (fun i => l_material (layers hp i))). now rewrite map_snd_combine by apply seq_length.
Qed.
(** Affinity and gap of the barriers. *)
Definition barrier_affinity (u : qw_unit) (hp : heap) : R :=
  (l_affinity (layers hp (hd 0%nat (u_layers u))) + l_affinity (layers hp (last (u_layers u) 0%nat))) / 2.
Definition barrier_gap (u : qw_unit) (hp : heap) : R :=
  (l_gap (layers hp (hd 0%nat (u_layers u))) + l_gap (layers hp (last (u_layers u) 0%nat))) / 2.
Lemma dos_result u s hp k : NoDup (materials u hp) -> (k < length (u_layers u))%nat ->
  let i := l_material (layers hp (nth k (u_layers u) 0%nat)) in
  mats (density_of_states erfc u s hp) i = dos_item u s hp (barrier_affinity u hp) (barrier_gap u hp) (widths_of u hp) (k, nth k (u_layers u) 0%nat) (mats hp i).
Proof.
  intros ND Hk i. unfold density_of_states. cbv zeta. fold (barrier_affinity u hp). fold (barrier_gap u hp).
  destruct (dos_loop u s (barrier_affinity u hp) (barrier_gap u hp) (widths_of u hp) (combine (seq 0 (length (u_layers u))) (u_layers u)) hp) as (E & _). rewrite E.
  refine (change_same (fun t : nat * nat => l_material (layers hp (snd t))) _ _ (mats hp) _ (k, nth k (u_layers u) 0%nat) (item_in _ _ Hk)). rewrite items_materials. exact ND.
Qed.
(** scipy's erfc, as far as it is needed. *)
Definition is_erfc : Prop := erfc 0 = 1 /\ forall x, 0 <= x -> 0 <= erfc x <= 1.
Definition occupation (u : qw_unit) : R := q / (kb * u_T u).
Definition level_e (s : solution) : list R := lv_e (levels_of s).
Lemma states_nonneg b s ws lv psi k : increasing (s_x s) -> at_ (s_x s) 0 <= 0 -> (forall w, In w ws -> 0 < w) ->
  (forall p, In p psi -> length p = length (s_x s)) -> 0 <= states b s ws lv psi k.
Proof.
  intros Hx H0 Hw Hp. apply total_nonneg. intros y Hy. apply in_map_iff in Hy as ([e p] & <- & Hin). cbn [fst snd]. apply in_combine_r in Hin.
  apply Rmult_le_pos; [left; apply exp_pos|]. destruct (nth_in_or_default k (probabilities (s_x s) (map (fun v => v ^ 2) p) 0 ws) 0) as [I|E]; [|rewrite E; lra].
  apply (C167_probability (s_x s) (map (fun v => v ^ 2) p) ws); auto; [rewrite map_length; now apply Hp|]. intros v Hv. apply in_map_iff in Hv as (z & <- & _). nra.
Qed.
(** If all layers have materials of their own: the density of states of a layer is that of its bulk,
    cut down by the depth of its well, and what the levels put into it. It is never negative, and
    where the band edge is not below that of the barriers the bulk counts in full. *)
Theorem C169_states_partial : forall u s hp k, is_erfc -> NoDup (materials u hp) -> (k < length (u_layers u))%nat -> 0 < u_T u ->
  increasing (s_x s) -> at_ (s_x s) 0 <= 0 -> (forall w, In w (widths_of u hp) -> 0 < w) ->
  (forall p, In p (s_psi_e s ++ s_psi_hh s ++ s_psi_lh s) -> length p = length (s_x s)) ->
  let l := layers hp (nth k (u_layers u) 0%nat) in let m := mats hp (l_material l) in let m' := mats (density_of_states erfc u s hp) (l_material l) in
  0 <= m_Ncc m -> 0 <= m_Nvhh m -> 0 <= m_Nvlh m ->
  let b := occupation u in let X := barrier_affinity u hp in let Eg := barrier_gap u hp in
  let depth_e := l_affinity l - X in let depth_h := (X + Eg) - (l_affinity l + l_gap l) in
  let ne := states b s (widths_of u hp) (map (fun e => (e - minimum (s_Ve s)) / q) (s_Ee s)) (s_psi_e s) k in
  let nhh := states b s (widths_of u hp) (map (fun e => (maximum (s_Vhh s) - e) / q) (s_Ehh s)) (s_psi_hh s) k in
  let nlh := states b s (widths_of u hp) (map (fun e => (maximum (s_Vlh s) - e) / q) (s_Elh s)) (s_psi_lh s) k in
  m_Nc m' = m_Ncc m * erfc (sqrt (Rmax 0 (b * depth_e))) + 2 / l_width l * rpow (m_Ncc m / 2) (2 / 3) * ne /\
  m_Nv m' = (m_Nvhh m + m_Nvlh m) * erfc (sqrt (Rmax 0 (b * depth_h)))
            + 2 / l_width l * (rpow (m_Nvhh m / 2) (2 / 3) * nhh + rpow (m_Nvlh m / 2) (2 / 3) * nlh) /\
  0 <= m_Nc m' /\ 0 <= m_Nv m' /\ (depth_e <= 0 -> m_Ncc m <= m_Nc m') /\ (depth_h <= 0 -> m_Nvhh m + m_Nvlh m <= m_Nv m').
Proof.
  intros u s hp k (Er0 & Er) ND Hk HT Hx H0 Hw Hp l m m' P1 P2 P3 b X Eg de dh ne nhh nlh.
  assert (E : m' = dos_item u s hp X Eg (widths_of u hp) (k, nth k (u_layers u) 0%nat) m) by (now apply dos_result). rewrite E.
  unfold dos_item. cbn [fst snd]. fold l. cbv zeta. fold (occupation u). fold b. rewrite !confined_states. cbn [set_dos m_Nc m_Nv levels_of lv_e lv_hh lv_lh].
  fold ne nhh nlh. unfold dos_e, dos_h. replace (X + Eg - l_affinity l - l_gap l) with dh by (unfold dh; ring). fold de. split; [reflexivity|]. split; [reflexivity|].
  assert (N1 : 0 <= ne) by (apply states_nonneg; auto; intros p Hin; apply Hp; apply in_or_app; now left).
  assert (N2 : 0 <= nhh) by (apply states_nonneg; auto; intros p Hin; apply Hp; apply in_or_app; right; apply in_or_app; now left).
  assert (N3 : 0 <= nlh) by (apply states_nonneg; auto; intros p Hin; apply Hp; apply in_or_app; right; apply in_or_app; now right).
  assert (PW : 0 < l_width l) by (apply Hw; unfold widths_of; apply in_map_iff; exists (nth k (u_layers u) 0%nat); split; [reflexivity|now apply nth_In]).
  assert (P2w : 0 < 2 / l_width l) by (apply Rdiv_lt_0_compat; lra).
  pose proof (rpow_pos (m_Ncc m / 2) (2 / 3)) as R1. pose proof (rpow_pos (m_Nvhh m / 2) (2 / 3)) as R2. pose proof (rpow_pos (m_Nvlh m / 2) (2 / 3)) as R3.
  set (r1 := rpow (m_Ncc m / 2) (2 / 3)) in *. set (r2 := rpow (m_Nvhh m / 2) (2 / 3)) in *. set (r3 := rpow (m_Nvlh m / 2) (2 / 3)) in *.
  assert (Q1 : 0 <= 2 / l_width l * r1 * ne) by (repeat apply Rmult_le_pos; lra).
  assert (Q2 : 0 <= 2 / l_width l * (r2 * nhh + r3 * nlh)) by (apply Rmult_le_pos; [lra|]; apply Rplus_le_le_0_compat; apply Rmult_le_pos; lra).
  pose proof (Er _ (sqrt_pos (Rmax 0 (b * de)))) as Ee. pose proof (Er _ (sqrt_pos (Rmax 0 (b * dh)))) as Eh.
  assert (Pb : 0 < b). { unfold b, occupation. pose proof q_pos. pose proof kb_pos. apply Rdiv_lt_0_compat; [lra|]. apply Rmult_lt_0_compat; lra. }
  assert (Z : forall d, d <= 0 -> erfc (sqrt (Rmax 0 (b * d))) = 1).
  { intros d Hd. rewrite Rmax_left by nra. now rewrite sqrt_0. }
  split; [apply Rplus_le_le_0_compat; [apply Rmult_le_pos; lra|exact Q1]|]. split; [apply Rplus_le_le_0_compat; [apply Rmult_le_pos; lra|exact Q2]|].
  split; [intros D; rewrite (Z de D); lra|intros D; rewrite (Z dh D); lra].
Qed.
(** All layers together get no more than the occupation of the levels of normalised states. *)
Theorem C169_sum : forall b s ws lv psi, increasing (s_x s) -> at_ (s_x s) 0 <= 0 -> (forall w, In w ws -> 0 < w) ->
  (forall p, In p psi -> length p = length (s_x s) /\ np_trapz (map (fun v => v ^ 2) p) (s_x s) = 1) ->
  total (map (states b s ws lv psi) (seq 0 (length ws))) <= total (map (fun e => exp (- b * e)) lv).
Proof.
  intros b s ws lv psi Hx H0 Hw Hp.
  assert (PL : forall l : list R, total (map (fun k => nth k l 0) (seq 0 (length l))) = total l).
  { clear. intros l. f_equal. induction l as [|x l IH]; [reflexivity|]. cbn [length seq map nth]. f_equal. rewrite <- seq_shift, map_map. exact IH. }
  assert (TA : forall (f g : nat -> R) l, total (map (fun k => f k + g k) l) = total (map f l) + total (map g l)).
  { clear. intros f g. induction l as [|x l IH]; [cbn; ring|]. cbn [map]. rewrite !total_cons, IH. ring. }
  assert (TS : forall c (f : nat -> R) l, total (map (fun k => c * f k) l) = c * total (map f l)).
  { clear. intros c f. induction l as [|x l IH]; [cbn; ring|]. cbn [map]. rewrite !total_cons, IH. ring. }
  assert (TZ : forall l : list nat, total (map (fun _ => 0) l) = 0) by (clear; induction l as [|x l IH]; [reflexivity|]; cbn [map]; rewrite total_cons, IH; ring).
  revert psi Hp. unfold states. induction lv as [|e lv IH]; intros psi Hp.
  - cbn [combine map]. change (total []) with 0. rewrite TZ. lra.
  - destruct psi as [|p psi].
    + cbn [combine map]. change (total []) with 0. rewrite TZ. rewrite total_cons. pose proof (exp_pos (- b * e)).
      assert (0 <= total (map (fun e => exp (- b * e)) lv)); [|lra]. apply total_nonneg. intros y Hy. apply in_map_iff in Hy as (z & <- & _). left. apply exp_pos.
    + cbn [combine map fst snd]. set (pr := probabilities (s_x s) (map (fun v => v ^ 2) p) 0 ws).
      destruct (Hp p (or_introl eq_refl)) as (HL & HN).
      destruct (C167_probability (s_x s) (map (fun v => v ^ 2) p) ws) as (L1 & L2 & L3); auto; [now rewrite map_length|intros v Hv; apply in_map_iff in Hv as (z & <- & _); nra|].
      fold pr in L1, L2, L3. rewrite HN in L3. fold (total pr) in L3. rewrite total_cons.
      specialize (IH psi (fun p' H' => Hp p' (or_intror H'))).
      set (g := fun k => total (map (fun t => exp (- b * fst t) * nth k (probabilities (s_x s) (map (fun v => v ^ 2) (snd t)) 0 ws) 0) (combine lv psi))) in *.
      assert (EQ : total (map (fun k => total (exp (- b * e) * nth k pr 0 :: map (fun t => exp (- b * fst t) * nth k (probabilities (s_x s) (map (fun v => v ^ 2) (snd t)) 0 ws) 0) (combine lv psi))) (seq 0 (length ws)))
              = exp (- b * e) * total pr + total (map g (seq 0 (length ws)))).
      { rewrite <- (PL pr), L1, <- TS, <- TA. reflexivity. }
      rewrite EQ. apply Rplus_le_compat; [|exact IH]. pose proof (exp_pos (- b * e)). nra.
Qed.
(** Layers that share a material: it has the values of the last one. *)
Theorem C169_shared_refuted : forall u s hp, let n := length (u_layers u) in (2 <= n)%nat -> 0 < u_T u ->
  let first := layers hp (hd 0%nat (u_layers u)) in let final := layers hp (last (u_layers u) 0%nat) in
  l_material first = l_material final -> l_affinity first = l_affinity final -> l_width first = l_width final -> 0 < l_width final -> 0 < m_Ncc (mats hp (l_material final)) ->
  let share := states (occupation u) s (widths_of u hp) (level_e s) (s_psi_e s) in
  share 0%nat <> share (n - 1)%nat ->
  let m := mats hp (l_material first) in
  m_Nc (mats (density_of_states erfc u s hp) (l_material first)) <>
  m_Ncc m * erfc (sqrt (Rmax 0 (occupation u * (l_affinity first - barrier_affinity u hp)))) + 2 / l_width first * rpow (m_Ncc m / 2) (2 / 3) * share 0%nat.
Proof.
  intros u s hp n Hn HT first final EM EA EW PW PN share NS m.
  unfold density_of_states. cbv zeta. fold (barrier_affinity u hp). fold (barrier_gap u hp).
  set (X := barrier_affinity u hp). set (Eg := barrier_gap u hp). set (ws := widths_of u hp) in *.
  destruct (dos_loop u s X Eg ws (combine (seq 0 n) (u_layers u)) hp) as (E & _). fold n. rewrite E. clear E.
  assert (SP : combine (seq 0 n) (u_layers u) = combine (seq 0 (n - 1)) (removelast (u_layers u)) ++ [((n - 1)%nat, last (u_layers u) 0%nat)]).
  { assert (EU : u_layers u = removelast (u_layers u) ++ [last (u_layers u) 0%nat]) by (apply app_removelast_last; intros Z; unfold n in Hn; rewrite Z in Hn; cbn in Hn; lia).
    assert (LR : length (removelast (u_layers u)) = (n - 1)%nat) by (unfold n; rewrite EU at 2; rewrite app_length; cbn; lia).
    rewrite EU at 1. replace n with (S (n - 1)) at 1 by lia. rewrite seq_S. revert LR. generalize (removelast (u_layers u)) as r. generalize (n - 1)%nat as k. clear.
    intros k r L. assert (G : forall o, combine (seq o k ++ [(o + k)%nat]) (r ++ [last (u_layers u) 0%nat]) = combine (seq o k) r ++ [((o + k)%nat, last (u_layers u) 0%nat)]).
    { revert r L. induction k as [|k IH]; intros [|x r] L o; cbn in L; try discriminate; [reflexivity|]. cbn [seq combine app]. f_equal.
      replace (o + S k)%nat with (S o + k)%nat by lia. apply IH. lia. }
    apply (G 0%nat). }
  rewrite SP, fold_left_app. cbn [fold_left]. set (M := fold_left _ _ (mats hp)).
  assert (KN : forall ts M0 j, m_Ncc (fold_left (change (fun t : nat * nat => l_material (layers hp (snd t))) (dos_item u s hp X Eg ws)) ts M0 j) = m_Ncc (M0 j)).
  { clear. induction ts as [|t ts IH]; intros M0 j; [reflexivity|]. cbn [fold_left]. rewrite IH. unfold change.
    destruct (Nat.eq_dec j (l_material (layers hp (snd t)))) as [->|N]; [rewrite upd_same; reflexivity|rewrite upd_other by exact N; reflexivity]. }
  unfold change. cbn [snd]. fold final. rewrite EM, upd_same. unfold dos_item. cbn [fst snd]. fold final. cbn [set_dos m_Nc]. unfold dos_e. rewrite confined_states.
  assert (KM : m_Ncc (M (l_material final)) = m_Ncc m) by (unfold M, m; rewrite KN, EM; reflexivity). rewrite KM. fold (occupation u). fold (level_e s). fold share.
  rewrite EA, EW. intros EQ. apply NS.
  assert (PR : 0 < 2 / l_width final * rpow (m_Ncc m / 2) (2 / 3)).
  { apply Rmult_lt_0_compat; [apply Rdiv_lt_0_compat; lra|]. unfold rpow. unfold m. rewrite EM. destruct (Req_EM_T (m_Ncc (mats hp (l_material final)) / 2) 0); [lra|]. apply exp_pos. }
  apply (Rmult_eq_reg_l (2 / l_width final * rpow (m_Ncc m / 2) (2 / 3))); [|lra]. lra.
Qed.
(** Barriers are said to have the bulk density of states only: they have also what leaks into them. *)
Theorem C169_barrier_refuted : forall u s hp, is_erfc -> NoDup (materials u hp) -> (1 <= length (u_layers u))%nat -> 0 < u_T u ->
  let l := layers hp (hd 0%nat (u_layers u)) in let m := mats hp (l_material l) in 0 < m_Ncc m -> 0 < l_width l ->
  l_affinity l <= l_affinity (layers hp (last (u_layers u) 0%nat)) ->
  0 < states (occupation u) s (widths_of u hp) (level_e s) (s_psi_e s) 0 ->
  m_Ncc m < m_Nc (mats (density_of_states erfc u s hp) (l_material l)).
Proof.
  intros u s hp (Er0 & Er) ND Hn HT l m PN PW HA HS. assert (E0 : hd 0%nat (u_layers u) = nth 0 (u_layers u) 0%nat) by (destruct (u_layers u); reflexivity).
  assert (E := dos_result u s hp 0 ND Hn). cbv zeta in E. rewrite <- E0 in E. fold l in E. fold m in E. rewrite E.
  unfold dos_item. cbn [fst snd set_dos m_Nc]. rewrite confined_states. fold l. fold (occupation u). fold (level_e s). unfold dos_e.
  assert (Pb : 0 < occupation u). { unfold occupation. pose proof q_pos. pose proof kb_pos. apply Rdiv_lt_0_compat; [lra|]. apply Rmult_lt_0_compat; lra. }
  assert (D : l_affinity l - barrier_affinity u hp <= 0) by (unfold barrier_affinity; fold l; lra).
  rewrite Rmax_left by nra. rewrite sqrt_0, Er0.
  assert (0 < 2 / l_width l * rpow (m_Ncc m / 2) (2 / 3) * states (occupation u) s (widths_of u hp) (level_e s) (s_psi_e s) 0); [|lra].
  apply Rmult_lt_0_compat; [|exact HS]. apply Rmult_lt_0_compat; [apply Rdiv_lt_0_compat; lra|]. unfold rpow. destruct (Req_EM_T (m_Ncc m / 2) 0); [lra|]. apply exp_pos.
Qed.
End States.

(** * Levels *)
(** [m] is the least, or the greatest, of the numbers. *)
Definition least (l : list R) (m : R) : Prop := In m l /\ forall x, In x l -> m <= x.
Definition greatest (l : list R) (m : R) : Prop := In m l /\ forall x, In x l -> x <= m.
Lemma fold_min l : forall a, (fold_left Rmin l a = a \/ In (fold_left Rmin l a) l) /\ fold_left Rmin l a <= a /\ forall x, In x l -> fold_left Rmin l a <= x.
Proof. induction l as [|y r IH]; intro a; cbn [fold_left]; [split; [left; reflexivity|split; [lra|intros x []]]|].
  destruct (IH (Rmin a y)) as (H1 & H2 & H3). assert (A := Rmin_l a y). assert (B := Rmin_r a y). split; [|split; [lra|]].
  - destruct H1 as [H1|H1]; [rewrite H1; unfold Rmin; destruct (Rle_dec a y); [left; reflexivity|right; left; reflexivity]|right; right; exact H1].
  - intros x [<-|Hx]; [lra|apply H3; exact Hx]. Qed.
Lemma fold_max l : forall a, (fold_left Rmax l a = a \/ In (fold_left Rmax l a) l) /\ a <= fold_left Rmax l a /\ forall x, In x l -> x <= fold_left Rmax l a.
Proof. induction l as [|y r IH]; intro a; cbn [fold_left]; [split; [left; reflexivity|split; [lra|intros x []]]|].
  destruct (IH (Rmax a y)) as (H1 & H2 & H3). assert (A := Rmax_l a y). assert (B := Rmax_r a y). split; [|split; [lra|]].
  - destruct H1 as [H1|H1]; [rewrite H1; unfold Rmax; destruct (Rle_dec a y); [right; left; reflexivity|left; reflexivity]|right; right; exact H1].
  - intros x [<-|Hx]; [lra|apply H3; exact Hx]. Qed.
Lemma minimum_least l : l <> [] -> least l (minimum l).
Proof. destruct l as [|a r]; [contradiction|]. intros _. unfold minimum. cbn [tl hd]. destruct (fold_min r a) as (H1 & H2 & H3).
  split; [destruct H1 as [->|H1]; [left; reflexivity|right; exact H1]|]. intros x [<-|Hx]; [exact H2|exact (H3 x Hx)]. Qed.
Lemma maximum_greatest l : l <> [] -> greatest l (maximum l).
Proof. destruct l as [|a r]; [contradiction|]. intros _. unfold maximum. cbn [tl hd]. destruct (fold_max r a) as (H1 & H2 & H3).
  split; [destruct H1 as [->|H1]; [left; reflexivity|right; exact H1]|]. intros x [<-|Hx]; [exact H2|exact (H3 x Hx)]. Qed.
(** The levels of electrons are counted in eV from the lowest point of their band, those of holes
    downwards from the highest of theirs. *)
Theorem C169_levels s : s_Ve s <> [] -> s_Vhh s <> [] -> s_Vlh s <> [] ->
  exists e hh lh, least (s_Ve s) e /\ greatest (s_Vhh s) hh /\ greatest (s_Vlh s) lh
  /\ map (fun x => e + x * q) (lv_e (levels_of s)) = s_Ee s
  /\ map (fun x => hh - x * q) (lv_hh (levels_of s)) = s_Ehh s
  /\ map (fun x => lh - x * q) (lv_lh (levels_of s)) = s_Elh s.
Proof. intros H1 H2 H3. exists (minimum (s_Ve s)), (maximum (s_Vhh s)), (maximum (s_Vlh s)).
  split; [apply minimum_least; exact H1|]. split; [apply maximum_greatest; exact H2|]. split; [apply maximum_greatest; exact H3|].
  assert (Hq := q_pos). cbn [levels_of lv_e lv_hh lv_lh]. rewrite !map_map.
  split; [|split]; rewrite <- map_id; apply map_ext; intro x; field; lra. Qed.
Example C169_levels_ex : least [3; 1; 2] (minimum [3; 1; 2]) /\ greatest [3; 1; 2] (maximum [3; 1; 2]).
Proof. split; [apply minimum_least|apply maximum_greatest]; discriminate. Qed.

(** C180: levels of quantum wells against the in-plane wave vector. *)
From Coq Require Import Reals ZArith String List Bool Lia Lra Permutation.
From Coquelicot Require Import Coquelicot.
From Coq Require Import List.
From Verif Require Import Common PhysConst InterpModel NpModel TmmModel DetBalModel DetBalProps SchrodModel LinAlg
  SchrodProps SchrodProps2 EllProps BandQwModel.
Import ListNotations.
Open Scope R_scope.
Open Scope list_scope.

(** * Components are normalised one by one *)

Lemma trapz_zero p z : (forall a, In a p -> a = 0) -> np_trapz p z = 0.
Proof.
  revert z. induction p as [|a p IH]; intros z H; [reflexivity|]. destruct p as [|b p]; [destruct z; reflexivity|].
  destruct z as [|x [|y z]]; try reflexivity. rewrite np_trapz_cons.
  rewrite IH by (intros c Hc; apply H; right; exact Hc).
  rewrite (H a) by (left; reflexivity). rewrite (H b) by (right; left; reflexivity). lra.
Qed.
Lemma norm_nonneg z p : 0 <= norm z p.
Proof. apply sqrt_pos. Qed.
Lemma list_max_nonneg l : (forall x, In x l -> 0 <= x) -> 0 <= list_max l.
Proof. destruct l as [|a l]; intro H; [simpl; lra|]. apply H, list_max_in. discriminate. Qed.

Lemma norm_scaled z p n : n = norm z p -> 0 < n -> np_trapz (map (fun a => a * a) (map (fun a => a / n) p)) z = 1.
Proof.
  intros -> Hn. set (n := norm z p) in *.
  assert (E : map (fun a => a * a) (map (fun a => a / n) p) = map (Rmult (/ (n * n))) (map (fun a => a * a) p)).
  { rewrite !map_map. apply map_ext. intro a. field. lra. }
  rewrite E, np_trapz_scale.
  assert (H : n * n = np_trapz (map (fun a => a * a) p) z).
  { unfold n, norm in *. destruct (Rle_dec 0 (np_trapz (map (fun a => a * a) p) z)) as [H|H].
    - apply sqrt_sqrt. exact H.
    - exfalso. rewrite sqrt_neg_0 in Hn by lra. lra. }
  rewrite <- H. field. lra.
Qed.

(** A component as returned: all zeros, or of norm one. *)
Definition unit_or_zero (z p : list R) : Prop :=
  (forall a, In a p -> a = 0) \/ np_trapz (map (fun a => a * a) p) z = 1.

Lemma scaled_unit z t p : 0 <= t -> unit_or_zero z (scaled t (norm z p) p).
Proof.
  intro Ht. unfold scaled. destruct (Rlt_dec t (norm z p)) as [H|H].
  - right. apply norm_scaled; [reflexivity|lra].
  - left. intros a Ha. apply in_map_iff in Ha. destruct Ha as (b & <- & _). ring.
Qed.
Lemma threshold_nonneg z (f : raw -> list R) l : 0 <= 1 / 100 * list_max (map (fun x => norm z (f x)) l).
Proof.
  assert (0 <= list_max (map (fun x => norm z (f x)) l)).
  { apply list_max_nonneg. intros x Hx. apply in_map_iff in Hx. destruct Hx as (y & <- & _). apply norm_nonneg. }
  lra.
Qed.

Lemma heavy_scaled z t p : 0 <= t -> heavy z (scaled t (norm z p) p) = true <-> t < norm z p.
Proof.
  intro Ht. unfold heavy, scaled. destruct (Rlt_dec t (norm z p)) as [H|H].
  - split; [intros _; exact H|]. intros _.
    assert (N : norm z (map (fun a => a / norm z p) p) = 1).
    { unfold norm at 1. rewrite (norm_scaled z p (norm z p)); [apply sqrt_1|reflexivity|lra]. }
    destruct (Rlt_dec (1 / 2) _) as [L|L]; [reflexivity|]. rewrite N in L. lra.
  - split; [|intro; contradiction].
    assert (N : norm z (map (fun a => a * 0) p) = 0).
    { unfold norm. rewrite trapz_zero; [apply sqrt_0|].
      intros a Ha. rewrite map_map in Ha. apply in_map_iff in Ha. destruct Ha as (b & <- & _). ring. }
    destruct (Rlt_dec (1 / 2) _) as [L|L]; [rewrite N in L; lra|discriminate].
Qed.

Lemma sort_perm l : Permutation (sort_raw l) l.
Proof.
  assert (I : forall x l, Permutation (insert_raw x l) (x :: l)).
  { intros x. induction l0 as [|y l0 IH]; simpl; [apply Permutation_refl|].
    destruct (Rle_dec (w_e x) (w_e y)); [apply Permutation_refl|].
    eapply Permutation_trans; [apply perm_skip, IH|apply perm_swap]. }
  induction l as [|x l IH]; simpl; [apply Permutation_refl|].
  eapply Permutation_trans; [apply I|apply perm_skip, IH].
Qed.

(** The levels of a block against the solver's pairs, independent of the order. *)
Definition from_solver (w : well) (lim : C) (out : list (C * list C)) (kept : list raw) : Prop :=
  forall x, In x kept -> exists p, In p out /\ cltc (fst p) lim = true /\
    w_e x = fst (fst p) /\ w_a x = evens (snd p) /\ w_b x = odds (snd p).

Lemma confined_from w lim num1 out : from_solver w lim out (map to_raw (confined lim num1 out)).
Proof.
  intros x Hx. apply in_map_iff in Hx. destruct Hx as (p & <- & Hp). unfold confined in Hp.
  apply filter_In in Hp. destruct Hp as [Hp Hc]. exists p. split.
  - rewrite <- (firstn_skipn num1 out). apply in_or_app. left. exact Hp.
  - split; [exact Hc|]. repeat split.
Qed.
Lemma sorted_from w lim num1 out : from_solver w lim out (sort_raw (map to_raw (confined lim num1 out))).
Proof.
  intros x Hx. apply (confined_from w lim num1 out). apply (Permutation_in x (sort_perm _)). exact Hx.
Qed.

(** C180: each component of each level of the solver is zero or normalised, and the energy is
    that of an eigenvalue of the solver, measured downwards from the offset. *)
Theorem C180_components : forall eigs w kt num0 num1 quasi sym u lo,
  solve_holes eigs w kt num0 num1 quasi sym = Ok (u, lo) ->
  (lo = None <-> sym = true) /\
  (length u <= num1)%nat /\ (length (match lo with Some l => l | None => [] end) <= num1)%nat /\
  forall v, In v u \/ In v (match lo with Some l => l | None => [] end) ->
    unit_or_zero (q_x w) (v_a v) /\ unit_or_zero (q_x w) (v_b v) /\
    exists blk p, In p (eigs (hole_matrix w kt blk) (2 * length (q_x w))%nat num0 (sigma w)) /\
      v_e v = offset w - fst (fst p) * E0 (q_x w).
Proof.
  intros eigs w kt num0 num1 quasi sym u lo H. unfold solve_holes in H.
  set (up := eigs (hole_matrix w kt true) _ num0 (sigma w)) in *.
  set (dn := eigs (hole_matrix w kt false) _ num0 (sigma w)) in *.
  destruct (limit (potmax w quasi) quasi up) as [lu|] eqn:E1; [|discriminate H]. cbn [bindR] in H.
  assert (LC : forall lim o, (length (map to_raw (confined lim num1 o)) <= num1)%nat).
  { intros. rewrite map_length. unfold confined. eapply Nat.le_trans; [apply filter_le|].
    rewrite firstn_length. lia. }
  assert (HU : forall v, In v (normal_upper (q_x w) (offset w) (E0 (q_x w)) (sort_raw (map to_raw (confined lu num1 up)))) ->
     unit_or_zero (q_x w) (v_a v) /\ unit_or_zero (q_x w) (v_b v) /\
     exists blk p, In p (eigs (hole_matrix w kt blk) (2 * length (q_x w))%nat num0 (sigma w)) /\
      v_e v = offset w - fst (fst p) * E0 (q_x w)).
  { intros v Hv. apply in_map_iff in Hv. destruct Hv as (x & <- & Hx). cbn [v_a v_b v_e].
    split; [apply scaled_unit, threshold_nonneg|]. split; [apply scaled_unit, threshold_nonneg|].
    apply (sorted_from w) in Hx. destruct Hx as (p & Hp & _ & He & _). exists true, p.
    split; [exact Hp|]. now rewrite He. }
  assert (LU : (length (normal_upper (q_x w) (offset w) (E0 (q_x w)) (sort_raw (map to_raw (confined lu num1 up)))) <= num1)%nat).
  { unfold normal_upper. rewrite map_length, (Permutation_length (sort_perm _)). apply LC. }
  destruct sym.
  - inversion H; subst. split; [tauto|]. split; [exact LU|]. split; [simpl; lia|].
    intros v [Hv|[]]. apply HU. exact Hv.
  - destruct (limit (potmax w quasi) quasi dn) as [ll|] eqn:E2; [|discriminate H]. cbn [bindR] in H.
    inversion H; subst. split; [split; discriminate|]. split; [exact LU|].
    split; [unfold normal_lower; rewrite map_length; apply LC|].
    intros v [Hv|Hv]; [apply HU; exact Hv|]. apply in_map_iff in Hv. destruct Hv as (x & <- & Hx). cbn [v_a v_b v_e].
    split; [apply scaled_unit, threshold_nonneg|]. split; [apply scaled_unit, threshold_nonneg|].
    apply (confined_from w) in Hx. destruct Hx as (p & Hp & _ & He & _). exists false, p.
    split; [exact Hp|]. now rewrite He.
Qed.

(** C180: a level counts as heavy exactly if its heavy component (the first in the upper
    block, the second in the lower one) is more than one per cent of the largest heavy
    component among the levels kept. *)
Theorem C180_character : forall eigs w kt num0 num1 quasi u l,
  solve_holes eigs w kt num0 num1 quasi false = Ok (u, Some l) ->
  exists ku kl,
    length ku = length u /\ length kl = length l /\
    (forall x, In x ku -> exists p, In p (eigs (hole_matrix w kt true) (2 * length (q_x w))%nat num0 (sigma w)) /\
       w_a x = evens (snd p) /\ w_b x = odds (snd p)) /\
    (forall x, In x kl -> exists p, In p (eigs (hole_matrix w kt false) (2 * length (q_x w))%nat num0 (sigma w)) /\
       w_a x = evens (snd p) /\ w_b x = odds (snd p)) /\
    (forall j x v, nth_error ku j = Some x -> nth_error u j = Some v ->
       (heavy (q_x w) (v_a v) = true <->
        forall y, In y ku -> norm (q_x w) (w_a y) / 100 < norm (q_x w) (w_a x))) /\
    (forall j x v, nth_error kl j = Some x -> nth_error l j = Some v ->
       (heavy (q_x w) (v_b v) = true <->
        forall y, In y kl -> norm (q_x w) (w_b y) / 100 < norm (q_x w) (w_b x))).
Proof.
  intros eigs w kt num0 num1 quasi u l H. unfold solve_holes in H.
  set (up := eigs (hole_matrix w kt true) _ num0 (sigma w)) in *.
  set (dn := eigs (hole_matrix w kt false) _ num0 (sigma w)) in *.
  destruct (limit (potmax w quasi) quasi up) as [lu|] eqn:E1; [|discriminate H]. cbn [bindR] in H.
  destruct (limit (potmax w quasi) quasi dn) as [ll|] eqn:E2; [|discriminate H]. cbn [bindR] in H.
  inversion H; subst. clear H.
  exists (sort_raw (map to_raw (confined lu num1 up))), (map to_raw (confined ll num1 dn)).
  assert (T : forall (f : raw -> list R) k x, In x k ->
     (1 / 100 * list_max (map (fun y => norm (q_x w) (f y)) k) < norm (q_x w) (f x) <->
      forall y, In y k -> norm (q_x w) (f y) / 100 < norm (q_x w) (f x))).
  { intros f k x Hx. split.
    - intros Hl y Hy. pose proof (list_max_ge (map (fun y => norm (q_x w) (f y)) k) _ (in_map _ _ y Hy)) as G.
      cbv beta in G. lra.
    - intro Ha. assert (I : In (list_max (map (fun y => norm (q_x w) (f y)) k)) (map (fun y => norm (q_x w) (f y)) k)).
      { apply list_max_in. destruct k; [contradiction|discriminate]. }
      apply in_map_iff in I. destruct I as (y & Ey & Hy). rewrite <- Ey. specialize (Ha y Hy). lra. }
  repeat split.
  - unfold normal_upper. now rewrite map_length.
  - unfold normal_lower. now rewrite !map_length.
  - intros x Hx. apply (sorted_from w) in Hx. destruct Hx as (p & Hp & _ & _ & Ha & Hb). exists p. auto.
  - intros x Hx. apply (confined_from w) in Hx. destruct Hx as (p & Hp & _ & _ & Ha & Hb). exists p. auto.
  - intro Hh. unfold normal_upper in H0. rewrite nth_error_map, H in H0. cbn [option_map] in H0. inversion H0; subst v.
    cbn [v_a] in Hh. apply heavy_scaled in Hh; [|apply (threshold_nonneg _ w_a)].
    apply (T w_a _ x); [eapply nth_error_In; exact H|exact Hh].
  - intro Hh. unfold normal_upper in H0. rewrite nth_error_map, H in H0. cbn [option_map] in H0. inversion H0; subst v.
    cbn [v_a]. apply heavy_scaled; [apply (threshold_nonneg _ w_a)|].
    apply (T w_a _ x); [eapply nth_error_In; exact H|exact Hh].
  - intro Hh. unfold normal_lower in H0. rewrite nth_error_map, H in H0. cbn [option_map] in H0. inversion H0; subst v.
    cbn [v_b] in Hh. apply heavy_scaled in Hh; [|apply (threshold_nonneg _ w_b)].
    apply (T w_b _ x); [eapply nth_error_In; exact H|exact Hh].
  - intro Hh. unfold normal_lower in H0. rewrite nth_error_map, H in H0. cbn [option_map] in H0. inversion H0; subst v.
    cbn [v_b]. apply heavy_scaled; [apply (threshold_nonneg _ w_b)|].
    apply (T w_b _ x); [eapply nth_error_In; exact H|exact Hh].
Qed.

(** * Confinement *)

Lemma top_zero w : q_Vhh w <> [] -> q_Vlh w <> [] -> 0 < list_max (q_x w) ->
  Rmax (list_max (shifted w (q_Vhh w))) (list_max (shifted w (q_Vlh w))) = 0.
Proof.
  intros H1 H2 HL. pose proof (E0_pos _ HL) as P.
  assert (N : forall f v, In v (shifted w f) -> (f = q_Vhh w \/ f = q_Vlh w) -> v <= 0).
  { intros f v Hv Hf. apply in_map_iff in Hv. destruct Hv as (x & <- & Hx).
    assert (offset w <= x).
    { unfold offset. destruct Hf; subst f.
      - pose proof (list_min_le _ _ Hx). pose proof (Rmin_l (list_min (q_Vhh w)) (list_min (q_Vlh w))). lra.
      - pose proof (list_min_le _ _ Hx). pose proof (Rmin_r (list_min (q_Vhh w)) (list_min (q_Vlh w))). lra. }
    unfold Rdiv. apply Rinv_0_lt_compat in P. nra. }
  assert (NE : forall f, f <> [] -> shifted w f <> []) by (intros [|a f] Hf; [congruence|discriminate]).
  assert (A : list_max (shifted w (q_Vhh w)) <= 0) by (apply (N (q_Vhh w)); [apply list_max_in, NE, H1|auto]).
  assert (B : list_max (shifted w (q_Vlh w)) <= 0) by (apply (N (q_Vlh w)); [apply list_max_in, NE, H2|auto]).
  apply Rle_antisym; [apply Rmax_lub; assumption|].
  unfold offset in *. destruct (Rle_dec (list_min (q_Vhh w)) (list_min (q_Vlh w))) as [L|L].
  - apply (Rle_trans _ (list_max (shifted w (q_Vhh w)))); [|apply Rmax_l].
    apply list_max_ge. apply in_map_iff. exists (list_min (q_Vhh w)). split; [|apply list_min_in; exact H1].
    unfold offset. rewrite Rmin_left by exact L. field. lra.
  - apply (Rle_trans _ (list_max (shifted w (q_Vlh w)))); [|apply Rmax_r].
    apply list_max_ge. apply in_map_iff. exists (list_min (q_Vlh w)). split; [|apply list_min_in; exact H2].
    unfold offset. rewrite Rmin_right by lra. field. lra.
Qed.

(** C180: with [quasiconfined] at least 0, no level lies more than that below the lowest point
    of the two valence bands. *)
Theorem C180_confined : forall eigs w kt num0 num1 quasi sym u lo,
  q_Vhh w <> [] -> q_Vlh w <> [] -> 0 < list_max (q_x w) -> 0 <= quasi ->
  solve_holes eigs w kt num0 num1 quasi sym = Ok (u, lo) ->
  forall v, In v u \/ In v (match lo with Some l => l | None => [] end) ->
    Rmin (list_min (q_Vhh w)) (list_min (q_Vlh w)) - quasi * q <= v_e v.
Proof.
  intros eigs w kt num0 num1 quasi sym u lo H1 H2 HL Hq H. pose proof (E0_pos _ HL) as P.
  assert (G : forall lim out k x, limit (potmax w quasi) quasi out = Ok lim -> from_solver w lim out k -> In x k ->
     offset w - quasi * q <= offset w - w_e x * E0 (q_x w)).
  { intros lim out k x El Hf Hx. unfold limit in El. destruct (Rlt_dec quasi 0); [lra|]. inversion El; subst lim.
    destruct (Hf x Hx) as (p & _ & Hc & He & _). rewrite He.
    assert (L : fst (fst p) <= potmax w quasi).
    { unfold cltc in Hc. cbn [RtoC fst snd] in Hc. destruct (Rlt_dec (fst (fst p)) (potmax w quasi)); [lra|].
      destruct (Req_EM_T (fst (fst p)) (potmax w quasi)); [lra|discriminate]. }
    unfold potmax in L. rewrite top_zero in L by assumption.
    apply (Rmult_le_compat_r (E0 (q_x w))) in L; [|lra].
    replace ((0 + quasi * q / E0 (q_x w)) * E0 (q_x w)) with (quasi * q) in L by (field; lra). lra. }
  unfold solve_holes in H.
  set (up := eigs (hole_matrix w kt true) _ num0 (sigma w)) in *.
  set (dn := eigs (hole_matrix w kt false) _ num0 (sigma w)) in *.
  destruct (limit (potmax w quasi) quasi up) as [lu|] eqn:E1; [|discriminate H]. cbn [bindR] in H.
  change (Rmin (list_min (q_Vhh w)) (list_min (q_Vlh w))) with (offset w).
  assert (HU : forall v, In v (normal_upper (q_x w) (offset w) (E0 (q_x w)) (sort_raw (map to_raw (confined lu num1 up)))) ->
     offset w - quasi * q <= v_e v).
  { intros v Hv. apply in_map_iff in Hv. destruct Hv as (x & <- & Hx). cbn [v_e].
    exact (G _ _ _ _ E1 (sorted_from w lu num1 up) Hx). }
  destruct sym.
  - inversion H; subst. intros v [Hv|[]]. apply HU. exact Hv.
  - destruct (limit (potmax w quasi) quasi dn) as [ll|] eqn:E2; [|discriminate H]. cbn [bindR] in H.
    inversion H; subst. intros v [Hv|Hv]; [apply HU; exact Hv|].
    apply in_map_iff in Hv. destruct Hv as (x & <- & Hx). cbn [v_e].
    exact (G _ _ _ _ E2 (confined_from w ll num1 dn) Hx).
Qed.

(** C180: the upper levels come with the energy nearest to the top of the valence band first. *)
Theorem C180_upper_order : forall eigs w kt num0 num1 quasi sym u lo,
  0 < list_max (q_x w) -> solve_holes eigs w kt num0 num1 quasi sym = Ok (u, lo) ->
  forall i j a b, (i <= j)%nat -> nth_error u i = Some a -> nth_error u j = Some b -> v_e b <= v_e a.
Proof.
  intros eigs w kt num0 num1 quasi sym u lo HL H. pose proof (E0_pos _ HL) as P.
  assert (SI : forall x l, (forall i j a b, (i <= j)%nat -> nth_error l i = Some a -> nth_error l j = Some b -> w_e a <= w_e b) ->
     forall i j a b, (i <= j)%nat -> nth_error (insert_raw x l) i = Some a -> nth_error (insert_raw x l) j = Some b -> w_e a <= w_e b).
  { intros x l. induction l as [|y l IH]; intros Hl i j a b Hij Ha Hb.
    - simpl in Ha, Hb. destruct i, j; simpl in Ha, Hb; try lia; try (destruct i; discriminate); try (destruct j; discriminate).
      assert (a = b) by congruence. subst. lra.
    - simpl in Ha, Hb. destruct (Rle_dec (w_e x) (w_e y)) as [L|L].
      + destruct i as [|i], j as [|j]; simpl in Ha, Hb; try lia.
        * assert (a = b) by congruence. subst. lra.
        * inversion Ha; subst a. pose proof (Hl O j y b ltac:(lia) eq_refl Hb). lra.
        * apply (Hl i j); [lia|exact Ha|exact Hb].
      + destruct i as [|i], j as [|j]; simpl in Ha, Hb; try lia.
        * assert (a = b) by congruence. subst. lra.
        * inversion Ha; subst a. apply nth_error_In in Hb.
          assert (Pm : forall z m, In z (insert_raw x m) -> z = x \/ In z m).
          { intros z m. induction m as [|c m IHm]; simpl; [intuition|]. destruct (Rle_dec (w_e x) (w_e c)); simpl; intuition. }
          destruct (Pm _ _ Hb) as [->|Hin]; [lra|]. apply In_nth_error in Hin. destruct Hin as [k Hk].
          apply (Hl O (S k)); [lia|reflexivity|exact Hk].
        * apply (IH ltac:(intros i' j' a' b' Hi; apply (Hl (S i') (S j')); lia) i j); [lia|exact Ha|exact Hb]. }
  assert (SS : forall l i j a b, (i <= j)%nat -> nth_error (sort_raw l) i = Some a -> nth_error (sort_raw l) j = Some b -> w_e a <= w_e b).
  { induction l as [|x l IH]; [intros [|i] j a b Hij Ha; discriminate Ha|]. intros i j a b. apply SI. exact IH. }
  unfold solve_holes in H.
  set (up := eigs (hole_matrix w kt true) _ num0 (sigma w)) in *.
  destruct (limit (potmax w quasi) quasi up) as [lu|] eqn:E1; [|discriminate H]. cbn [bindR] in H.
  assert (EU : u = normal_upper (q_x w) (offset w) (E0 (q_x w)) (sort_raw (map to_raw (confined lu num1 up)))).
  { destruct sym; [congruence|].
    destruct (limit (potmax w quasi) quasi (eigs (hole_matrix w kt false) (2 * length (q_x w))%nat num0 (sigma w)));
      [|discriminate H]. cbn [bindR] in H. congruence. }
  subst u. intros i j a b Hij Ha Hb. unfold normal_upper in Ha, Hb. rewrite nth_error_map in Ha, Hb.
  destruct (nth_error _ i) as [x|] eqn:Ei in Ha; [|discriminate]. destruct (nth_error _ j) as [y|] eqn:Ej in Hb; [|discriminate].
  cbn [option_map] in Ha, Hb. inversion Ha; subst a. inversion Hb; subst b. cbn [v_e].
  pose proof (SS _ _ _ _ _ Hij Ei Ej). nra.
Qed.

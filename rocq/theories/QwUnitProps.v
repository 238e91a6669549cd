(** Proofs about QwUnitModel: roles (C166) and averages (C167). *)
From Coq Require Import Reals String List Bool Arith Lra Lia.
From Verif Require Import Common PhysConst NpModel InterpModel InterpProps DetBalModel QwUnitModel.
From Coq Require Import List.
Import ListNotations.
Open Scope R_scope.
Open Scope list_scope.

(** * C166 *)
Definition well_names : list string := ["well"; "qw"; "QW"; "Qw"; "Well"]%string.
Definition called_well (l : layer) : Prop := exists s, l_role l = Some s /\ In s well_names.
Lemma is_well_spec l : is_well (l_role l) = true <-> called_well l.
Proof.
  unfold called_well, is_well. destruct (l_role l) as [s|].
  - rewrite existsb_exists. split.
    + intros (x & Hx & E). apply String.eqb_eq in E. subst x. exists s. split; [reflexivity|exact Hx].
    + intros (x & [= <-] & Hx). exists s. split; [exact Hx|apply String.eqb_refl].
  - split; [discriminate|]. intros (x & [=] & _).
Qed.
Definition inner_role (l : layer) : string := if is_well (l_role l) then "well"%string else "interlayer"%string.
Fixpoint count_wells (h : heap) (ids : list nat) : nat :=
  match ids with [] => 0 | i :: r => ((if is_well (l_role (layers h i)) then 1 else 0) + count_wells h r)%nat end.
Fixpoint wells_width (h : heap) (ids : list nat) : R :=
  match ids with [] => 0 | i :: r => (if is_well (l_role (layers h i)) then l_width (layers h i) else 0) + wells_width h r end.
Lemma upd_same {A} (f : nat -> A) i x : upd f i x i = x.
Proof. unfold upd. now rewrite Nat.eqb_refl. Qed.
Lemma upd_other {A} (f : nat -> A) i x j : j <> i -> upd f i x j = f j.
Proof. intros H. unfold upd. apply Nat.eqb_neq in H. now rewrite H. Qed.
Lemma inner_again l : is_well (Some (inner_role l)) = is_well (l_role l).
Proof. unfold inner_role. destruct (is_well (l_role l)); reflexivity. Qed.
Lemma assign_step ids i h n w : assign_roles (i :: ids) (h, n, w) =
  assign_roles ids (set_layer h i (with_role (inner_role (layers h i)) (layers h i)),
     ((if is_well (l_role (layers h i)) then 1 else 0) + n)%nat, w + (if is_well (l_role (layers h i)) then l_width (layers h i) else 0)).
Proof. cbn [assign_roles fst snd]. unfold inner_role. destruct (is_well (l_role (layers h i))); [reflexivity|]. now rewrite Rplus_0_r. Qed.
Lemma assign_spec ids : forall h n w, exists h', assign_roles ids (h, n, w) = (h', (count_wells h ids + n)%nat, w + wells_width h ids) /\
  mats h' = mats h /\ (forall i, ~ In i ids -> layers h' i = layers h i) /\
  (forall i, In i ids -> layers h' i = with_role (inner_role (layers h i)) (layers h i)).
Proof.
  induction ids as [|i ids IH]; intros h n w.
  - exists h. cbn. rewrite Rplus_0_r. repeat split; auto. intros i [].
  - rewrite assign_step. set (h1 := set_layer h i (with_role (inner_role (layers h i)) (layers h i))).
    destruct (IH h1 ((if is_well (l_role (layers h i)) then 1 else 0) + n)%nat (w + (if is_well (l_role (layers h i)) then l_width (layers h i) else 0)))
      as (h' & E & M & N & Y). exists h'.
    assert (SR : forall j, is_well (l_role (layers h1 j)) = is_well (l_role (layers h j)) /\ l_width (layers h1 j) = l_width (layers h j)).
    { intros j. unfold h1. cbn [set_layer layers]. destruct (Nat.eq_dec j i) as [->|Nj].
      - rewrite upd_same. cbn [with_role l_role l_width]. split; [apply inner_again|reflexivity].
      - rewrite upd_other by exact Nj. split; reflexivity. }
    assert (C1 : forall l, count_wells h1 l = count_wells h l) by (induction l as [|j l IHl]; [reflexivity|]; cbn [count_wells]; now rewrite IHl, (proj1 (SR j))).
    assert (C2 : forall l, wells_width h1 l = wells_width h l) by (induction l as [|j l IHl]; [reflexivity|]; cbn [wells_width]; now rewrite IHl, (proj1 (SR j)), (proj2 (SR j))).
    rewrite C1, C2 in E. split; [rewrite E; cbn [count_wells wells_width]; f_equal; [f_equal; lia|ring]|]. split; [rewrite M; reflexivity|].
    assert (D : forall j, j <> i -> layers h1 j = layers h j) by (intros j Hj; unfold h1; cbn [set_layer layers]; now apply upd_other).
    split.
    + intros j Hj. rewrite N by (intros K; apply Hj; now right). apply D. intros ->. apply Hj. now left.
    + intros j Hj. destruct (in_dec Nat.eq_dec j ids) as [I|I].
      * rewrite Y by exact I. destruct (Nat.eq_dec j i) as [->|Nj]; [|now rewrite D by exact Nj].
        unfold h1. cbn [set_layer layers]. rewrite upd_same. unfold inner_role. cbn [with_role l_role].
        destruct (is_well (l_role (layers h i))) eqn:EW; reflexivity.
      * destruct Hj as [<-|Hj]; [|contradiction]. rewrite N by exact I. unfold h1. cbn [set_layer layers]. now rewrite upd_same.
Qed.
Lemma list_ends (ids : list nat) : (3 <= length ids)%nat -> ids = hd 0%nat ids :: removelast (tl ids) ++ [last ids 0%nat].
Proof.
  destruct ids as [|a ids]; [cbn; lia|]. destruct ids as [|b ids]; [cbn; lia|]. intros _. cbn [hd tl].
  change (last (a :: b :: ids) 0%nat) with (last (b :: ids) 0%nat). rewrite <- app_removelast_last by discriminate. reflexivity.
Qed.
(** If neither end is also used inside: the ends are barriers, the layers between are wells or
    interlayers by the role they were given, and the unit has the number and the width of the wells;
    nothing else is changed. *)
Theorem C166_roles_partial : forall ids kw h h' u, qw_init ids kw h = (h', Ok u) ->
  ~ In (hd 0%nat ids) (removelast (tl ids)) -> ~ In (last ids 0%nat) (removelast (tl ids)) ->
  let inner := removelast (tl ids) in
  u_layers u = ids /\ u_labels u = map (fun i => l_role (layers h' i)) ids /\
  l_role (layers h' (hd 0%nat ids)) = Some "barrier"%string /\ l_role (layers h' (last ids 0%nat)) = Some "barrier"%string /\
  (forall i, In i inner -> (called_well (layers h i) -> l_role (layers h' i) = Some "well"%string) /\
     (~ called_well (layers h i) -> l_role (layers h' i) = Some "interlayer"%string)) /\
  u_number u = length (filter (fun i => is_well (l_role (layers h i))) inner) /\
  u_width u = fold_right Rplus 0 (map (fun i => l_width (layers h i)) (filter (fun i => is_well (l_role (layers h i))) inner)) /\
  (forall i, l_width (layers h' i) = l_width (layers h i) /\ l_material (layers h' i) = l_material (layers h i)) /\
  (forall i, ~ In i ids -> layers h' i = layers h i) /\ mats h' = mats h /\
  u_T u = match kw_T kw with Some t => t | None => 298 end.
Proof.
  intros ids kw h h' u H Na Nb inner. unfold qw_init in H. destruct (length ids <? 3)%nat eqn:EL; [discriminate|]. apply Nat.ltb_ge in EL.
  cbv zeta in H. set (a := hd 0%nat ids) in *. set (b := last ids 0%nat) in *. fold inner in H, Na, Nb.
  set (h1 := set_layer h a (with_role "barrier" (layers h a))) in *. set (h2 := set_layer h1 b (with_role "barrier" (layers h1 b))) in *.
  destruct (assign_spec inner h2 0%nat 0) as (h3 & E & M & N & Y). rewrite E in H. cbn [fst snd] in H.
  destruct (kw_substrate kw); [|discriminate]. assert (Eh : h' = h3) by congruence. subst h'.
  assert (Eu : u = Unit ids (map (fun i => l_role (layers h3 i)) ids) (count_wells h2 inner + 0) (0 + wells_width h2 inner)
                    (match kw_T kw with Some t => t | None => 298 end) (kw_repeat kw)) by congruence. subst u. clear H. cbn [u_layers u_labels u_number u_width u_T].
  assert (L2a : layers h2 a = with_role "barrier" (layers h a)).
  { unfold h2. cbn [set_layer layers]. destruct (Nat.eq_dec a b) as [Eab|Nab].
    - rewrite <- Eab, upd_same. unfold h1. cbn [set_layer layers]. rewrite upd_same. reflexivity.
    - rewrite upd_other by exact Nab. unfold h1. cbn [set_layer layers]. apply upd_same. }
  assert (L2b : exists l, layers h2 b = with_role "barrier" l /\ l_width l = l_width (layers h b) /\ l_material l = l_material (layers h b)).
  { unfold h2. cbn [set_layer layers]. rewrite upd_same. eexists. split; [reflexivity|]. unfold h1. cbn [set_layer layers].
    destruct (Nat.eq_dec b a) as [->|Nab]; [rewrite upd_same|rewrite upd_other by exact Nab]; split; reflexivity. }
  assert (L2o : forall i, i <> a -> i <> b -> layers h2 i = layers h i).
  { intros i Ia Ib. unfold h2. cbn [set_layer layers]. rewrite upd_other by exact Ib. unfold h1. cbn [set_layer layers]. now apply upd_other. }
  assert (L2i : forall i, In i inner -> layers h2 i = layers h i) by (intros i Hi; apply L2o; intros ->; contradiction).
  assert (C1 : forall l, (forall i, In i l -> layers h2 i = layers h i) -> count_wells h2 l = length (filter (fun i => is_well (l_role (layers h i))) l)).
  { induction l as [|i l IHl]; intros HI; [reflexivity|]. cbn [count_wells filter]. rewrite HI by (now left). rewrite IHl by (intros j Hj; apply HI; now right).
    destruct (is_well (l_role (layers h i))); reflexivity. }
  assert (C2 : forall l, (forall i, In i l -> layers h2 i = layers h i) ->
     wells_width h2 l = fold_right Rplus 0 (map (fun i => l_width (layers h i)) (filter (fun i => is_well (l_role (layers h i))) l))).
  { induction l as [|i l IHl]; intros HI; [reflexivity|]. cbn [wells_width filter]. rewrite HI by (now left). rewrite IHl by (intros j Hj; apply HI; now right).
    destruct (is_well (l_role (layers h i))); [reflexivity|apply Rplus_0_l]. }
  split; [reflexivity|]. split; [reflexivity|]. split; [rewrite N, L2a by exact Na; reflexivity|].
  split. { rewrite N by exact Nb. destruct L2b as (l & -> & _). reflexivity. }
  split. { intros i Hi. rewrite Y, L2i by exact Hi. cbn [with_role l_role]. unfold inner_role. split; intros W.
    - apply is_well_spec in W. now rewrite W.
    - destruct (is_well (l_role (layers h i))) eqn:EW; [|reflexivity]. elim W. now apply is_well_spec. }
  split; [rewrite C1 by exact L2i; lia|]. split; [rewrite C2 by exact L2i; ring|].
  assert (K2 : forall i, l_width (layers h2 i) = l_width (layers h i) /\ l_material (layers h2 i) = l_material (layers h i)).
  { intros i. destruct (Nat.eq_dec i b) as [->|Ib]; [destruct L2b as (l & -> & E1 & E2); split; [exact E1|exact E2]|].
    destruct (Nat.eq_dec i a) as [->|Ia]; [rewrite L2a; split; reflexivity|]. rewrite L2o by assumption. split; reflexivity. }
  split. { intros i. destruct (in_dec Nat.eq_dec i inner) as [I|I]; [rewrite Y by exact I; apply K2|rewrite N by exact I; apply K2]. }
  split; [|split; [rewrite M; reflexivity|reflexivity]].
  intros i Hi. assert (EI : ids = a :: inner ++ [b]) by (apply list_ends; lia). rewrite EI in Hi.
  rewrite N by (intros K; apply Hi; right; apply in_or_app; now left).
  apply L2o; intros ->; apply Hi; [now left|right; apply in_or_app; right; now left].
Qed.
(** Less than three layers are refused, and so is a unit without a substrate. *)
Theorem C166_refused : forall ids kw h, ((length ids < 3)%nat -> qw_init ids kw h = (h, Err SystemExit)) /\
  (kw_substrate kw = false -> snd (qw_init ids kw h) = Err SystemExit) /\
  ((3 <= length ids)%nat -> kw_substrate kw = true -> exists u, snd (qw_init ids kw h) = Ok u).
Proof.
  intros ids kw h. unfold qw_init. split; [intros H; apply Nat.ltb_lt in H; now rewrite H|]. split.
  - intros H. destruct (length ids <? 3)%nat; [reflexivity|]. cbv zeta. rewrite H. reflexivity.
  - intros H S. assert (E : (length ids <? 3)%nat = false) by (apply Nat.ltb_ge; lia). rewrite E. cbv zeta. rewrite S. eexists. reflexivity.
Qed.
Definition plain (r : option string) : layer := Layer 1 0 r 0 0 None None.
Definition air : mat := Mat 0 0 0 1 1 1 (fun _ => 1) (fun _ => 0) 0 0 0 0 0 0 None 0.
(** The usual multiple quantum well, with one object for all barriers: barriers at the ends become
    interlayers. *)
Theorem C166_alias_refuted : exists ids kw h h' u, qw_init ids kw h = (h', Ok u) /\ l_role (layers h (hd 0%nat ids)) = Some "barrier"%string /\
  nth 0 (u_labels u) None = Some "interlayer"%string /\ nth 4 (u_labels u) None = Some "interlayer"%string /\ u_number u = 2%nat.
Proof.
  exists [0; 1; 0; 1; 0]%nat, (Keywords true None None),
    (Heap (fun i => if Nat.eqb i 1 then plain (Some "well"%string) else plain (Some "barrier"%string)) (fun _ => air)).
  eexists. eexists. split; [reflexivity|]. repeat split; reflexivity.
Qed.
(** A unit that is refused has changed its layers. *)
Theorem C166_effect_refuted : exists ids kw h h', qw_init ids kw h = (h', Err SystemExit) /\
  l_role (layers h' (hd 0%nat ids)) <> l_role (layers h (hd 0%nat ids)).
Proof.
  exists [0; 1; 2]%nat, (Keywords false None None), (Heap (fun i => plain None) (fun _ => air)).
  eexists. split; [reflexivity|]. cbn. discriminate.
Qed.

(** * C167 *)
Lemma slice_nth l i j k : (k < j - i)%nat -> nth k (slice l i j) 0 = nth (i + k) l 0.
Proof.
  intros H. unfold slice. assert (F : forall n (m : list R) k, (k < n)%nat -> nth k (firstn n m) 0 = nth k m 0).
  { clear. induction n as [|n IH]; intros m k H; [lia|]. destruct m as [|x m]; [reflexivity|]. destruct k as [|k]; [reflexivity|]. cbn. apply IH. lia. }
  rewrite F by exact H. clear. revert i. induction l as [|x l IH]; intros [|i]; cbn [skipn Nat.add]; try reflexivity.
  - now rewrite !nth_overflow by (cbn; lia).
  - rewrite IH. reflexivity.
Qed.
Lemma slice_length l i j : (j <= length l)%nat -> length (slice l i j) = (j - i)%nat.
Proof. intros H. unfold slice. rewrite firstn_length, skipn_length. lia. Qed.
Lemma last_nth1 (l : list R) d : last l d = nth (length l - 1) l d.
Proof. induction l as [|x [|y l] IH]; [reflexivity|reflexivity|]. change (last (x :: y :: l) d) with (last (y :: l) d). rewrite IH. cbn [length]. rewrite !Nat.sub_succ, !Nat.sub_0_r. reflexivity. Qed.
Lemma trapz_between lo hi : forall y x, length y = length x -> (forall v, In v y -> lo <= v <= hi) -> nondecreasing x -> x <> [] ->
  lo * (last x 0 - hd 0 x) <= np_trapz y x <= hi * (last x 0 - hd 0 x).
Proof.
  induction y as [|y0 [|y1 y] IH]; intros [|x0 [|x1 x]] HL Hy Hx N; cbn [length] in HL; try discriminate; try (now elim N).
  - cbn. lra.
  - rewrite np_trapz_cons. change (last (x0 :: x1 :: x) 0) with (last (x1 :: x) 0). cbn [hd].
    assert (I : lo * (last (x1 :: x) 0 - hd 0 (x1 :: x)) <= np_trapz (y1 :: y) (x1 :: x) <= hi * (last (x1 :: x) 0 - hd 0 (x1 :: x))).
    { apply IH; [cbn; lia|intros v Hv; apply Hy; now right| |discriminate]. intros i j Hij. apply (Hx (S i) (S j)). cbn [length] in *. lia. }
    cbn [hd] in I. assert (x0 <= x1) by (apply (Hx 0%nat 1%nat); cbn; lia).
    assert (B0 : lo <= y0 <= hi) by (apply Hy; now left). assert (B1 : lo <= y1 <= hi) by (apply Hy; right; now left). split; nra.
Qed.
Lemma increasing_nd x : increasing x -> nondecreasing x.
Proof. intros H i j Hij. destruct (Nat.eq_dec i j) as [->|N]; [lra|]. left. apply H. lia. Qed.
Lemma ss_spec x v : increasing x -> (searchsorted x v <= length x)%nat /\ (forall i, (i < searchsorted x v)%nat -> at_ x i < v) /\
  (forall i, (searchsorted x v <= i < length x)%nat -> v <= at_ x i).
Proof.
  intros H. induction x as [|a x IH]; [cbn; repeat split; intros; lia|]. cbn [searchsorted].
  assert (HI : increasing x) by (intros i j Hij; apply (H (S i) (S j)); cbn; lia). destruct (IH HI) as (A & B & C). destruct (Rlt_dec a v) as [L|L].
  - split; [cbn; lia|]. split.
    + intros [|i] Hi; [exact L|]. apply B. lia.
    + intros [|i] Hi; [lia|]. apply C. cbn in Hi. lia.
  - split; [cbn; lia|]. split; [intros i Hi; lia|]. intros [|i] Hi; [cbn; lra|].
    assert (at_ (a :: x) 0 < at_ (a :: x) (S i)) by (apply H; cbn in *; lia). cbn in *. lra.
Qed.
(** Where layer [k] begins. *)
Definition start (widths : list R) (k : nat) : R := fold_right Rplus 0 (firstn k widths).
Lemma start_cons w ws k : start (w :: ws) (S k) = w + start ws k.
Proof. reflexivity. Qed.
Lemma averages_between x y lo hi : increasing x -> length y = length x -> forall ws a vs k v,
  (forall w, In w ws -> 0 < w) -> at_ x 0 <= a -> averages x y a ws = Ok vs -> nth_error vs k = Some (Some v) ->
  (forall i, (i < length x)%nat -> a + start ws k <= at_ x i < a + start ws (S k) -> lo <= at_ y i <= hi) -> lo <= v <= hi.
Proof.
  intros Hx HL. induction ws as [|w ws IH]; intros a vs k v Hw H0 H HK HB; cbn [averages] in H; [injection H as <-; destruct k; discriminate|].
  assert (Pw : 0 < w) by (apply Hw; now left).
  destruct (part x x a (a + w)) as [|x0 xx] eqn:EP; [discriminate|]. set (d := last (x0 :: xx) 0 - x0) in *.
  destruct (averages x y (a + w) ws) as [vs'|] eqn:E'; [|discriminate]. cbn [bindR] in H.
  set (w0 := if Req_EM_T d 0 then None else Some (np_trapz (part x y a (a + w)) (x0 :: xx) / d)) in *.
  assert (EV : vs = w0 :: vs') by congruence. clear H. subst vs. destruct k as [|k].
  - cbn [nth_error] in HK. assert (EK : w0 = Some v) by congruence. unfold w0 in EK. destruct (Req_EM_T d 0) as [|Nd]; [discriminate|].
    assert (Ev : v = np_trapz (part x y a (a + w)) (x0 :: xx) / d) by congruence. clear EK.
    destruct (ss_spec x a Hx) as (A1 & A2 & A3). destruct (ss_spec x (a + w) Hx) as (B1 & B2 & B3).
    unfold part in EP, Ev. rewrite HL in Ev. set (i := searchsorted x a) in *. set (j := searchsorted x (a + w)) in *.
    assert (Hj : (1 <= j)%nat).
    { destruct (Nat.eq_dec j 0) as [E|E]; [|lia]. rewrite E in *. destruct (Nat.eq_dec (length x) 0) as [EZ|EZ].
      - apply length_zero_iff_nil in EZ. rewrite EZ in EP. unfold slice in EP. rewrite skipn_nil, firstn_nil in EP. discriminate.
      - assert (a + w <= at_ x 0) by (apply B3; lia). lra. }
    replace (slice_end (length x) j) with (j - 1)%nat in * by (destruct j; [lia|cbn; lia]).
    assert (SX : length (slice x i (j - 1)) = (j - 1 - i)%nat) by (apply slice_length; lia).
    assert (SY : length (slice y i (j - 1)) = (j - 1 - i)%nat) by (apply slice_length; lia).
    assert (NX : nondecreasing (slice x i (j - 1))).
    { intros k l Hkl. rewrite SX in Hkl. rewrite !slice_nth by lia. apply increasing_nd; [exact Hx|]. lia. }
    assert (NN : slice x i (j - 1) <> []) by (rewrite EP; discriminate).
    assert (T := trapz_between lo hi (slice y i (j - 1)) (slice x i (j - 1)) ltac:(congruence)). rewrite <- EP in Ev.
    assert (TB : forall u, In u (slice y i (j - 1)) -> lo <= u <= hi).
    { intros u Hu. apply (In_nth _ _ 0) in Hu as (k & Hk & <-). rewrite SY in Hk. rewrite slice_nth by lia. apply HB; [lia|].
      change (start (w :: ws) 0) with 0. rewrite start_cons. change (start ws 0) with 0. split; [rewrite Rplus_0_r; apply A3; lia|].
      rewrite Rplus_0_r. apply B2. lia. }
    specialize (T TB NX NN). assert (ED : last (slice x i (j - 1)) 0 - hd 0 (slice x i (j - 1)) = d) by (rewrite EP; reflexivity). rewrite ED in T.
    assert (Pd : 0 < d).
    { assert (0 <= d); [|lra]. unfold d. rewrite last_nth1. assert (HH := NX 0%nat (length (slice x i (j - 1)) - 1)%nat). rewrite EP in HH. cbn [length] in HH |- *.
      assert (at_ (x0 :: xx) 0 <= at_ (x0 :: xx) (S (length xx) - 1)) by (apply HH; lia). cbn [nth] in *. lra. }
    rewrite Ev. split.
    + apply (Rmult_le_reg_r d); [exact Pd|]. unfold Rdiv. rewrite Rmult_assoc, Rinv_l, Rmult_1_r by lra. lra.
    + apply (Rmult_le_reg_r d); [exact Pd|]. unfold Rdiv. rewrite Rmult_assoc, Rinv_l, Rmult_1_r by lra. lra.
  - cbn [nth_error] in HK. apply (IH (a + w) vs' k v); [intros u Hu; apply Hw; now right|lra|exact E'|exact HK|].
    intros i Hi HI. apply HB; [exact Hi|]. rewrite !start_cons in *. lra.
Qed.
(** The average of a layer is between the bounds of the values in the layer; hence the average of a
    constant is the constant. *)
Theorem C167_average : forall x y widths vs k v lo hi, increasing x -> length y = length x -> at_ x 0 <= 0 -> (forall w, In w widths -> 0 < w) ->
  averages x y 0 widths = Ok vs -> nth_error vs k = Some (Some v) ->
  (forall i, (i < length x)%nat -> start widths k <= at_ x i < start widths (S k) -> lo <= at_ y i <= hi) -> lo <= v <= hi.
Proof.
  intros x y widths vs k v lo hi Hx HL H0 Hw H HK HB. apply (averages_between x y lo hi Hx HL widths 0 vs k v Hw H0 H HK).
  intros i Hi HI. rewrite !Rplus_0_l in HI. now apply HB.
Qed.
(** With at least three points in every layer there is an average for every layer. *)
Theorem C167_defined : forall x y widths, increasing x ->
  (forall k, (k < length widths)%nat -> exists i, (i + 2 < length x)%nat /\ start widths k <= at_ x i /\ at_ x (i + 2) < start widths (S k)) ->
  exists vs, averages x y 0 widths = Ok (map Some vs) /\ length vs = length widths.
Proof.
  intros x y widths Hx HK.
  assert (G : forall ws a, (forall k, (k < length ws)%nat -> exists i, (i + 2 < length x)%nat /\ a + start ws k <= at_ x i /\ at_ x (i + 2) < a + start ws (S k)) ->
    exists vs, averages x y a ws = Ok (map Some vs) /\ length vs = length ws).
  { induction ws as [|w ws IH]; intros a H; [exists []; split; reflexivity|]. cbn [averages].
    destruct (H 0%nat ltac:(cbn; lia)) as (i & Hi & I1 & I2). change (start (w :: ws) 0) with 0 in I1. rewrite start_cons in I2. change (start ws 0) with 0 in I2.
    rewrite Rplus_0_r in I1. rewrite Rplus_0_r in I2.
    destruct (ss_spec x a Hx) as (A1 & A2 & A3). destruct (ss_spec x (a + w) Hx) as (B1 & B2 & B3).
    set (p := searchsorted x a) in *. set (r := searchsorted x (a + w)) in *.
    assert (Hp : (p <= i)%nat) by (destruct (le_lt_dec p i) as [|L]; [assumption|]; specialize (A2 i L); lra).
    assert (Hr : (i + 3 <= r)%nat) by (destruct (le_lt_dec (i + 3) r) as [|L]; [assumption|]; specialize (B3 (i + 2)%nat ltac:(lia)); lra).
    assert (EP : part x x a (a + w) = slice x p (r - 1)) by (unfold part; fold p r; destruct r; [lia|]; cbn [slice_end]; rewrite Nat.sub_succ, Nat.sub_0_r; reflexivity).
    assert (SX : length (slice x p (r - 1)) = (r - 1 - p)%nat) by (apply slice_length; lia).
    assert (H0 : nth 0 (slice x p (r - 1)) 0 < last (slice x p (r - 1)) 0).
    { rewrite last_nth1, SX, !slice_nth by lia. apply Hx. lia. }
    destruct (part x x a (a + w)) as [|x0 xx] eqn:EE; [rewrite <- EP in SX; cbn in SX; lia|]. rewrite <- EP in H0. cbn [nth] in H0.
    destruct (Req_EM_T (last (x0 :: xx) 0 - x0) 0) as [Z|_]; [lra|].
    destruct (IH (a + w)) as (vs & E & L).
    { intros k Hk. destruct (H (S k) ltac:(cbn; lia)) as (i' & Hi' & J1 & J2). exists i'. rewrite !start_cons in *. repeat split; [lia|lra|lra]. }
    rewrite E. cbn [bindR]. eexists (_ :: vs). split; [reflexivity|]. cbn. congruence. }
  apply (G widths 0). intros k Hk. destruct (HK k Hk) as (i & A & B & C). exists i. rewrite !Rplus_0_l. auto.
Qed.
Lemma trapz_split : forall k y x, length y = length x -> (forall v, In v y -> 0 <= v) -> nondecreasing x ->
  0 <= np_trapz (firstn k y) (firstn k x) /\ np_trapz (firstn k y) (firstn k x) + np_trapz (skipn k y) (skipn k x) <= np_trapz y x.
Proof.
  induction k as [|k IH]; intros y x HL Hy Hx; [cbn [firstn skipn]; cbn [np_trapz]; lra|].
  destruct y as [|y0 y]; destruct x as [|x0 x]; try discriminate; [cbn; lra|].
  assert (Hy' : forall v, In v y -> 0 <= v) by (intros v Hv; apply Hy; now right).
  assert (Hx' : nondecreasing x) by (intros i j Hij; apply (Hx (S i) (S j)); cbn [length] in *; lia).
  destruct (IH y x ltac:(cbn in HL; lia) Hy' Hx') as (I1 & I2). cbn [firstn skipn]. destruct y as [|y1 y]; destruct x as [|x1 x]; try discriminate.
  - destruct k; cbn; lra.
  - assert (x0 <= x1) by (apply (Hx 0%nat 1%nat); cbn; lia). assert (0 <= y0) by (apply Hy; now left). assert (0 <= y1) by (apply Hy; right; now left).
    assert (P : 0 <= (x1 - x0) * (y0 + y1) / 2) by (assert (0 <= (x1 - x0) * (y0 + y1)) by (apply Rmult_le_pos; lra); lra).
    rewrite np_trapz_cons. destruct k as [|k]; [cbn [firstn skipn] in *; cbn [np_trapz] in I1 |- *; change (np_trapz [y0] [x0]) with 0; fold (np_trapz (y1 :: y) (x1 :: x)) in *; lra|].
    cbn [firstn skipn] in *. rewrite np_trapz_cons. lra.
Qed.
Lemma skipn_skipn_ {A} i j (l : list A) : skipn i (skipn j l) = skipn (j + i) l.
Proof. revert l. induction j as [|j IH]; intros l; [reflexivity|]. destruct l; [now rewrite !skipn_nil|]. cbn. apply IH. Qed.
Lemma nd_skipn x k : nondecreasing x -> nondecreasing (skipn k x).
Proof.
  intros H i j Hij. rewrite skipn_length in Hij. assert (N : forall m, nth m (skipn k x) 0 = nth (k + m) x 0).
  { clear. revert x. induction k as [|k IH]; intros x m; [reflexivity|]. destruct x; [now rewrite !nth_overflow by (cbn; lia)|]. cbn. apply IH. }
  rewrite !N. apply H. lia.
Qed.
Lemma in_skipn {A} (v : A) k l : In v (skipn k l) -> In v l.
Proof. revert l. induction k as [|k IH]; intros l H; [exact H|]. destruct l; [exact H|]. right. now apply IH. Qed.
Lemma in_firstn {A} (v : A) k l : In v (firstn k l) -> In v l.
Proof. revert l. induction k as [|k IH]; intros l H; [contradiction|]. destruct l; [exact H|]. destruct H as [->|H]; [now left|right; now apply IH]. Qed.
Lemma nd_firstn x k : nondecreasing x -> nondecreasing (firstn k x).
Proof.
  intros H i j Hij. rewrite firstn_length in Hij. assert (N : forall m, (m < k)%nat -> nth m (firstn k x) 0 = nth m x 0).
  { clear. revert x. induction k as [|k IH]; intros x m Hm; [lia|]. destruct x; [reflexivity|]. destruct m; [reflexivity|]. cbn. apply IH. lia. }
  rewrite !N by lia. apply H. lia.
Qed.
(** Of a density that is not negative, no layer has a negative part and all together have at most
    everything. *)
Theorem C167_probability : forall x y widths, increasing x -> length y = length x -> at_ x 0 <= 0 -> (forall w, In w widths -> 0 < w) -> (forall v, In v y -> 0 <= v) ->
  length (probabilities x y 0 widths) = length widths /\ (forall p, In p (probabilities x y 0 widths) -> 0 <= p) /\
  fold_right Rplus 0 (probabilities x y 0 widths) <= np_trapz y x.
Proof.
  intros x y widths Hx HL H0 Hw Hy. pose proof (increasing_nd x Hx) as Hn.
  assert (G : forall ws a, at_ x 0 <= a -> (forall w, In w ws -> 0 < w) -> length (probabilities x y a ws) = length ws /\
    (forall p, In p (probabilities x y a ws) -> 0 <= p) /\
    fold_right Rplus 0 (probabilities x y a ws) <= np_trapz (skipn (searchsorted x a) y) (skipn (searchsorted x a) x)).
  { induction ws as [|w ws IH]; intros a Ha Hws; cbn [probabilities length fold_right In].
    - split; [reflexivity|]. split; [intros p []|]. apply np_trapz_nonneg; [rewrite !skipn_length; lia|intros v Hv; apply Hy; now apply in_skipn in Hv|now apply nd_skipn].
    - assert (Pw : 0 < w) by (apply Hws; now left). destruct (IH (a + w)) as (I0 & I1 & I2); [lra|intros u Hu; apply Hws; now right|].
      destruct (ss_spec x a Hx) as (A1 & A2 & A3). destruct (ss_spec x (a + w) Hx) as (B1 & B2 & B3).
      unfold part. rewrite HL. set (i := searchsorted x a) in *. set (j := searchsorted x (a + w)) in *.
      destruct (Nat.eq_dec (length x) 0) as [EZ|EZ].
      { assert (x = []) by (now apply length_zero_iff_nil). assert (y = []) by (apply length_zero_iff_nil; lia). subst x y.
        unfold slice in *. rewrite !skipn_nil, !firstn_nil in *. cbn [np_trapz] in *. split; [lia|]. split; [intros p [<-|Hp]; [lra|auto]|lra]. }
      assert (Hj : (1 <= j)%nat) by (destruct (Nat.eq_dec j 0) as [E|E]; [|lia]; assert (a + w <= at_ x 0) by (apply B3; lia); lra).
      assert (Hij : (i <= j)%nat). { destruct (le_lt_dec i j) as [|L]; [assumption|]. assert (at_ x j < a) by (apply A2; lia). assert (a + w <= at_ x j) by (apply B3; lia). lra. }
      replace (slice_end (length x) j) with (j - 1)%nat by (destruct j; [lia|cbn; lia]). unfold slice.
      set (ys := skipn i y) in *. set (xs := skipn i x) in *. assert (HLs : length ys = length xs) by (unfold ys, xs; rewrite !skipn_length; lia).
      assert (Hys : forall v, In v ys -> 0 <= v) by (intros v Hv; apply Hy; now apply in_skipn in Hv). assert (Hxs : nondecreasing xs) by (now apply nd_skipn).
      destruct (trapz_split (j - i) ys xs HLs Hys Hxs) as (T1 & T2).
      assert (EY : skipn (j - i) ys = skipn j y) by (unfold ys; rewrite skipn_skipn_; f_equal; lia). assert (EX : skipn (j - i) xs = skipn j x) by (unfold xs; rewrite skipn_skipn_; f_equal; lia). rewrite EY, EX in T2.
      destruct (trapz_split (j - 1 - i) ys xs HLs Hys Hxs) as (T3 & _).
      assert (T4 : np_trapz (firstn (j - 1 - i) ys) (firstn (j - 1 - i) xs) <= np_trapz (firstn (j - i) ys) (firstn (j - i) xs)).
      { destruct (trapz_split (j - 1 - i) (firstn (j - i) ys) (firstn (j - i) xs)) as (_ & T5).
        - rewrite !firstn_length. lia.
        - intros v Hv. apply Hys. now apply in_firstn in Hv.
        - now apply nd_firstn.
        - rewrite !firstn_firstn in T5. replace (Nat.min (j - 1 - i) (j - i)) with (j - 1 - i)%nat in T5 by lia.
          assert (0 <= np_trapz (skipn (j - 1 - i) (firstn (j - i) ys)) (skipn (j - 1 - i) (firstn (j - i) xs))); [|lra].
          apply np_trapz_nonneg; [rewrite !skipn_length, !firstn_length; lia| |apply nd_skipn; now apply nd_firstn].
          intros v Hv. apply Hys. apply in_skipn in Hv. now apply in_firstn in Hv. }
      split; [lia|]. split; [intros p [<-|Hp]; [exact T3|auto]|]. lra. }
  destruct (G widths 0 H0 Hw) as (G0 & G1 & G2). split; [exact G0|]. split; [exact G1|]. eapply Rle_trans; [exact G2|].
  destruct (trapz_split (searchsorted x 0) y x HL Hy Hn) as (T1 & T2). lra.
Qed.
Ltac decide_lt := repeat match goal with |- context [Rlt_dec ?a ?b] => destruct (Rlt_dec a b); try lra end.
(** The last interval of every layer is left out: the mean of a linear function over a layer of five
    points is wrong, and a density may be lost altogether. *)
Theorem C167_mean_refuted : exists x y widths, increasing x /\ length y = length x /\ at_ x 0 = 0 /\
  (forall i, (i < length x)%nat -> 0 <= at_ x i <= start widths 1) /\ length widths = 1%nat /\
  averages x y 0 widths = Ok [Some 1] /\ np_trapz y x / start widths 1 = 2.
Proof.
  exists [0; 1; 2; 3; 4], [0; 1; 2; 3; 4], [4]. split.
  { intros i j Hij. cbn [length] in Hij. do 5 (destruct i as [|i]; [do 5 (destruct j as [|j]; [cbn; try lia; lra|]); lia|]). lia. }
  split; [reflexivity|]. split; [reflexivity|]. split.
  { intros i Hi. cbn [length] in Hi. unfold start. cbn [firstn fold_right]. do 5 (destruct i as [|i]; [cbn; lra|]). lia. }
  split; [reflexivity|]. split.
  - cbn [averages]. unfold part. assert (S0 : searchsorted [0; 1; 2; 3; 4] 0 = 0%nat) by (cbn [searchsorted]; decide_lt; reflexivity).
    assert (S4 : searchsorted [0; 1; 2; 3; 4] (0 + 4) = 4%nat) by (cbn [searchsorted]; decide_lt; reflexivity).
    rewrite S0, S4. cbn [slice_end length slice skipn firstn Nat.sub last bindR]. unfold slice. cbn [skipn firstn Nat.sub last].
    destruct (Req_EM_T (2 - 0) 0); [lra|]. do 2 f_equal. f_equal. cbn [np_trapz]. field.
  - unfold start. cbn [np_trapz firstn fold_right]. field.
Qed.
Theorem C167_lost_refuted : exists x y widths, increasing x /\ length y = length x /\ (forall v, In v y -> 0 <= v) /\ at_ x 0 = 0 /\
  (forall i, (i < length x)%nat -> 0 <= at_ x i <= start widths 2) /\ length widths = 2%nat /\
  np_trapz y x = 1 /\ fold_right Rplus 0 (probabilities x y 0 widths) = 0.
Proof.
  exists [0; 1; 2; 3; 4], [1 / 4; 1 / 4; 1 / 4; 1 / 4; 1 / 4], [2; 2]. split.
  { intros i j Hij. cbn [length] in Hij. do 5 (destruct i as [|i]; [do 5 (destruct j as [|j]; [cbn; try lia; lra|]); lia|]). lia. }
  split; [reflexivity|]. split; [intros v Hv; cbn in Hv; repeat (destruct Hv as [<-|Hv]; [lra|]); contradiction|]. split; [reflexivity|]. split.
  { intros i Hi. cbn [length] in Hi. unfold start. cbn [firstn fold_right]. do 5 (destruct i as [|i]; [cbn; lra|]). lia. }
  split; [reflexivity|]. split; [cbn [np_trapz]; field|].
  cbn [probabilities]. unfold part.
  assert (S0 : searchsorted [0; 1; 2; 3; 4] 0 = 0%nat) by (cbn [searchsorted]; decide_lt; reflexivity).
  assert (S2 : searchsorted [0; 1; 2; 3; 4] (0 + 2) = 2%nat) by (cbn [searchsorted]; decide_lt; reflexivity).
  assert (S4 : searchsorted [0; 1; 2; 3; 4] (0 + 2 + 2) = 4%nat) by (cbn [searchsorted]; decide_lt; reflexivity).
  rewrite S0, S2, S4. unfold slice. cbn. ring.
Qed.

(** * Examples *)
(** A barrier, a well and a barrier. *)
Example C166_example : exists h' u, qw_init [0; 1; 2]%nat (Keywords true None (Some 30%nat))
    (Heap (fun i => if Nat.eqb i 1 then plain (Some "QW"%string) else plain None) (fun _ => air)) = (h', Ok u) /\
  ~ In 0%nat (removelast (tl [0; 1; 2]%nat)) /\ ~ In 2%nat (removelast (tl [0; 1; 2]%nat)) /\
  u_labels u = [Some "barrier"; Some "well"; Some "barrier"]%string /\ u_number u = 1%nat /\ u_width u = 1.
Proof.
  eexists. eexists. split; [reflexivity|]. cbn. split; [lia|]. split; [lia|]. split; [reflexivity|]. split; [reflexivity|]. ring.
Qed.
Example C167_example : increasing [0; 1; 2; 3; 4] /\ exists i, (i + 2 < length [0; 1; 2; 3; 4])%nat /\ start [4] 0 <= at_ [0; 1; 2; 3; 4] i /\ at_ [0; 1; 2; 3; 4] (i + 2) < start [4] 1.
Proof.
  split; [intros i j Hij; cbn [length] in Hij; do 5 (destruct i as [|i]; [do 5 (destruct j as [|j]; [cbn; try lia; lra|]); lia|]); lia|].
  exists 0%nat. unfold start. cbn. split; [lia|lra].
Qed.

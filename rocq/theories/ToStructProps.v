(** Property C195 about devices as structures. *)
From Coq Require Import Reals Ascii String List Arith Bool Lra Lia.
From Verif Require Import Common PhysConst InterpModel InterpProps NpModel ToStructModel.
From Coq Require Import List.
Import ListNotations.
Open Scope R_scope.
Open Scope list_scope.

(** * Structures *)
(** What the layers of a device are after some changes. *)
Fixpoint history (l : list dlayer) (ops : list op) : list dlayer :=
  match ops with
  | [] => l
  | AddL x :: r => history (l ++ x) r
  | RemoveL i :: r => history (firstn i l ++ skipn (S i) l) r
  end.
Lemma add_layers_spec x : forall d, d_num d = length (d_layers d) ->
  add_layers d x = Device (d_T d) (length (d_layers d ++ x)) (d_layers d ++ x) (d_substrate d).
Proof.
  unfold add_layers. induction x as [|a x IH]; intros d H; cbn [fold_left].
  - rewrite app_nil_r. destruct d as [T n l s]. cbn in *. now rewrite H.
  - rewrite IH by (cbn; rewrite app_length; cbn; lia). cbn [d_T d_layers d_substrate]. now rewrite <- app_assoc.
Qed.
Lemma run_spec ops : forall d, d_num d = length (d_layers d) ->
  run d ops = Device (d_T d) (length (history (d_layers d) ops)) (history (d_layers d) ops) (d_substrate d).
Proof.
  induction ops as [|[x|i] ops IH]; intros d H; cbn [run history].
  - destruct d as [T n l s]. cbn in *. now rewrite H.
  - rewrite add_layers_spec by exact H. rewrite IH by reflexivity. reflexivity.
  - unfold remove_layer. destruct (Nat.ltb_spec i (length (d_layers d))) as [L|L].
    + rewrite IH; [reflexivity|]. cbn [d_num d_layers]. rewrite app_length, firstn_length, skipn_length, H. lia.
    + rewrite IH by exact H. now rewrite firstn_all2, skipn_all2, app_nil_r by lia.
Qed.
(** Roles that are texts without quotation marks and new lines. *)
Definition good_role (x : dlayer) : Prop := exists s, dl_label x = Some s /\ ~ In """"%char (list_ascii_of_string s) /\ ~ In "010"%char (list_ascii_of_string s).
Lemma good_quotable s : ~ In """"%char (list_ascii_of_string s) -> ~ In "010"%char (list_ascii_of_string s) -> quotable s = true.
Proof.
  induction s as [|a s IH]; intros H1 H2; [reflexivity|]. cbn [quotable]. rewrite IH by (intros H; solve [apply H1; now right | apply H2; now right]). rewrite andb_true_r, andb_true_iff. split; apply negb_true_iff, Nat.eqb_neq; intros E.
  - apply H1. left. rewrite <- (ascii_nat_embedding a), E. reflexivity.
  - apply H2. left. rewrite <- (ascii_nat_embedding a), E. reflexivity.
Qed.
Lemma to_layers_spec T nn sub : forall l pre, (forall x, In x l -> good_role x) ->
  to_layers (Device T nn (pre ++ l) sub) (length pre) (length l) =
  Ok (map (fun x => Layer (dl_width x) (Mat (dl_comp x) T "True") (match dl_label x with Some s => s | None => "" end)) l).
Proof.
  induction l as [|x l IH]; intros pre H; [reflexivity|]. cbn [length to_layers d_layers]. rewrite nth_error_app2, Nat.sub_diag by lia. cbn [nth_error].
  destruct (H x (or_introl eq_refl)) as (s & E & Q1 & Q2). unfold to_layer. rewrite E. cbn [role_text]. rewrite good_quotable by assumption. cbn [bindR d_T].
  specialize (IH (pre ++ [x]) (fun y Hy => H y (or_intror Hy))). rewrite <- app_assoc in IH. cbn [app] in IH. rewrite app_length in IH. cbn [length] in IH. rewrite Nat.add_1_r in IH.
  rewrite IH. cbn [bindR map]. now rewrite E.
Qed.
(** Whatever layers were added to and removed from a device, its structure has those that are
    left, in order, with their widths, compositions and roles at the temperature of the device. *)
Theorem C195_structure : forall d ops, d_num d = length (d_layers d) -> (forall x, In x (history (d_layers d) ops) -> good_role x) ->
  exists l, to_structure (run d ops) = Ok (l, (d_substrate d, d_T d)) /\ length l = length (history (d_layers d) ops) /\
    forall i x, nth_error (history (d_layers d) ops) i = Some x -> exists y, nth_error l i = Some y /\
      l_width y = dl_width x /\ m_comp (l_mat y) = dl_comp x /\ m_T (l_mat y) = d_T d /\ dl_label x = Some (l_role y).
Proof.
  intros d ops H G. unfold to_structure. rewrite run_spec by exact H. cbn [d_num d_substrate d_T].
  pose proof (to_layers_spec (d_T d) (length (history (d_layers d) ops)) (d_substrate d) (history (d_layers d) ops) [] G) as E. cbn [app length] in E. rewrite E. cbn [bindR].
  eexists. split; [reflexivity|]. split; [apply map_length|]. intros i x Hi. rewrite nth_error_map, Hi. eexists. split; [reflexivity|]. cbn.
  destruct (G x (nth_error_In _ _ Hi)) as (s & -> & _). repeat split.
Qed.
Definition ex_props : props := Props 1 1 1 1 1 1 None.
Definition ex_layer (s : string) : dlayer := DLayer (Some s) (Comp "InGaAs" (Some ("In"%string, 2 / 10))) 10 ex_props.
Example C195_structure_ex : history [ex_layer "barrier"] [AddL [ex_layer "well"; ex_layer "barrier"]; RemoveL 0] = [ex_layer "well"; ex_layer "barrier"] /\
  good_role (ex_layer "well") /\ good_role (ex_layer "barrier").
Proof. split; [reflexivity|]. split; eexists; (split; [reflexivity|]); cbn; intuition discriminate. Qed.
(** A layer without role gets the role None as a text. *)
Theorem C195_role_refuted : exists d l y s, d_num d = length (d_layers d) /\ (exists x, d_layers d = [x] /\ dl_label x = None) /\
  to_structure d = Ok (l, s) /\ l = [y] /\ l_role y = "None"%string.
Proof.
  exists (Device 300 1 [DLayer None (Comp "GaAs" None) 10 ex_props] (Comp "GaAs" None)). do 3 eexists. split; [reflexivity|]. split; [eexists; split; reflexivity|]. split; [reflexivity|]. split; reflexivity.
Qed.

(** * Absorption of a layer *)
Lemma truncate_spec gap wl a b : truncate gap wl a = Ok b -> exists i, (i < length wl)%nat /\
  (forall j, (j < length wl)%nat -> Rabs (at_ wl i - edge gap) <= Rabs (at_ wl j - edge gap)) /\
  (forall j, (j < i)%nat -> Rabs (at_ wl i - edge gap) < Rabs (at_ wl j - edge gap)) /\
  length b = length a /\ (forall j, (j < i)%nat -> at_ b j = at_ a j) /\ (forall j, (i <= j)%nat -> at_ b j = 0).
Proof.
  unfold truncate. intros H. destruct (np_argmax (map (fun w => - Rabs (w - edge gap)) wl)) as [i|] eqn:E; [|discriminate H]. cbn [bindR] in H. injection H as <-.
  apply np_argmax_spec in E. destruct E as (E1 & E2 & E3). rewrite map_length in E1.
  assert (A : forall j, (j < length wl)%nat -> at_ (map (fun w => - Rabs (w - edge gap)) wl) j = - Rabs (at_ wl j - edge gap)).
  { intros j Hj. rewrite (nth_indep _ 0 ((fun w => - Rabs (w - edge gap)) 0)) by now rewrite map_length. apply (map_nth (fun w => - Rabs (w - edge gap))). }
  exists i. split; [exact E1|]. split; [|split; [|split; [|split]]].
  - intros j Hj. specialize (E2 j). rewrite map_length in E2. specialize (E2 Hj). rewrite !A in E2 by assumption. lra.
  - intros j Hj. specialize (E3 j Hj). rewrite !A in E3 by lia. lra.
  - rewrite app_length, map_length, <- app_length, firstn_skipn. reflexivity.
  - intros j Hj. destruct (Nat.lt_ge_cases j (length a)) as [L|L].
    + rewrite app_nth1 by (rewrite firstn_length; lia). rewrite <- (firstn_skipn i a) at 2. rewrite app_nth1 by (rewrite firstn_length; lia). reflexivity.
    + rewrite !nth_overflow; [reflexivity|exact L|]. rewrite app_length, map_length, <- app_length, firstn_skipn. exact L.
  - intros j Hj. destruct (Nat.lt_ge_cases j (length (firstn i a))) as [L|L]; [rewrite firstn_length in L; lia|]. rewrite app_nth2 by exact L.
    generalize (j - length (firstn i a))%nat. generalize (skipn i a). clear. induction l as [|x l IH]; intros [|n]; try reflexivity. apply IH.
Qed.
(** For increasing wavelengths the absorption of InGaAs is zero beyond the gap and that of the
    data below it, but for the one wavelength nearest to it. *)
Theorem C195_gap : forall gap alpha adachi use wl a out, increasing wl -> alpha = Ok a -> (use = true -> is_ok adachi = false) -> wl <> [] ->
  load_absorption true gap alpha adachi use wl = Ok out ->
  fst out = wl /\ length (snd out) = length a /\
  (forall j, (j < length wl)%nat -> edge gap < at_ wl j -> at_ (snd out) j = 0) /\
  (forall j, (j < length wl)%nat -> at_ wl j < edge gap -> (exists k, (k < length wl)%nat /\ Rabs (at_ wl k - edge gap) < Rabs (at_ wl j - edge gap)) -> at_ (snd out) j = at_ a j).
Proof.
  intros gap alpha adachi use wl a out Hw -> Hu Hne H.
  assert (X : exists b, truncate gap wl a = Ok b /\ out = (wl, b)).
  { unfold load_absorption in H. cbn [bindR] in H. destruct (truncate gap wl a) as [b|x] eqn:E.
    - exists b. split; [reflexivity|]. destruct use; [destruct adachi; [discriminate (Hu eq_refl)|]|]; cbn [bindR] in H; congruence.
    - exfalso. unfold truncate in E. destruct wl; [congruence|]. cbn [map np_argmax bindR] in E. discriminate E. }
  destruct X as (b & E & ->). cbn [fst snd]. destruct (truncate_spec _ _ _ _ E) as (i & Hi & Hmin & Hfirst & Hl & Hb & Hz).
  split; [reflexivity|]. split; [exact Hl|]. split.
  - intros j Hj He. apply Hz. destruct (Nat.lt_ge_cases j i) as [L|L]; [|exact L]. exfalso. specialize (Hfirst j L).
    assert (at_ wl j < at_ wl i) by (apply Hw; lia). rewrite !Rabs_right in Hfirst by lra. lra.
  - intros j Hj He (k & Hk & Hn). apply Hb. destruct (Nat.lt_ge_cases j i) as [L|L]; [exact L|]. exfalso. specialize (Hmin k Hk).
    assert (at_ wl i <= at_ wl j) by (destruct (Nat.eq_dec i j) as [->|N]; [lra|left; apply Hw; lia]). rewrite (Rabs_left (at_ wl j - edge gap)) in Hn by lra. rewrite (Rabs_left (at_ wl i - edge gap)) in Hmin by lra. lra.
Qed.
(** Other materials: Adachi's model if asked for and known, and the data otherwise; and Adachi's model for
    InGaAs if the data cannot be cut at the gap. *)
Theorem C195_other : forall gap alpha adachi wl, 
  (forall a, alpha = Ok a -> load_absorption false gap alpha adachi false wl = Ok (wl, a)) /\
  (forall ingaas a, adachi = Ok a -> load_absorption ingaas gap alpha adachi true wl = Ok (wl, a)) /\
  (forall a, is_ok adachi = false -> alpha = Ok a -> load_absorption false gap alpha adachi true wl = Ok (wl, a)) /\
  (forall a b, wl = [] -> alpha = Ok a -> adachi = Ok b -> load_absorption true gap alpha adachi false wl = Ok (wl, b)).
Proof. intros gap alpha adachi wl. repeat split; intros; subst; try reflexivity. destruct adachi; [discriminate|reflexivity]. Qed.
(** If the gap is beyond all wavelengths the last one still loses its absorption. *)
Lemma truncate_two gap w1 w2 a1 a2 : Rabs (w2 - edge gap) < Rabs (w1 - edge gap) -> truncate gap [w1; w2] [a1; a2] = Ok [a1; 0].
Proof. intros H. unfold truncate. cbn [map np_argmax argmax_from]. destruct (Rlt_dec _ _); [reflexivity|lra]. Qed.
Theorem C195_last_refuted : exists gap wl a b, 0 < gap /\ increasing wl /\ (forall w, In w wl -> w < edge gap) /\
  load_absorption true gap (Ok a) (Err ValueError) false wl = Ok (wl, b) /\ In (at_ wl 1) wl /\ at_ a 1 = 1 /\ at_ b 1 = 0.
Proof.
  assert (Q := q_pos). set (gap := 1240 / 10 ^ 9 * q / 3).
  assert (E : edge gap = 3) by (unfold edge, gap; field; lra).
  exists gap, [1; 2], [1; 1], [1; 0]. split; [unfold gap; apply Rdiv_lt_0_compat; [apply Rmult_lt_0_compat; lra|lra]|].
  split; [intros i j Hij; cbn in Hij; destruct i as [|[|i]]; destruct j as [|[|j]]; cbn; try lia; lra|].
  rewrite E. split; [intros w [<-|[<-|[]]]; lra|]. split.
  - unfold load_absorption. cbn [bindR]. rewrite truncate_two; [reflexivity|]. rewrite E, !Rabs_left by lra. lra.
  - cbn. repeat split. tauto.
Qed.
(** For decreasing wavelengths the wrong side is removed. *)
Theorem C195_order_refuted : exists gap wl a b, 0 < gap /\
  load_absorption true gap (Ok a) (Err ValueError) false wl = Ok (wl, b) /\ at_ wl 0 > edge gap /\ at_ wl 1 < edge gap /\ at_ a 0 = 1 /\ at_ b 0 = 1 /\ at_ a 1 = 1 /\ at_ b 1 = 0.
Proof.
  assert (Q := q_pos). set (gap := 1240 / 10 ^ 9 * q / 3).
  assert (E : edge gap = 3) by (unfold edge, gap; field; lra).
  exists gap, [5; 2], [1; 1], [1; 0]. split; [unfold gap; apply Rdiv_lt_0_compat; [apply Rmult_lt_0_compat; lra|lra]|].
  rewrite E. split.
  - unfold load_absorption. cbn [bindR]. rewrite truncate_two; [reflexivity|]. rewrite E, Rabs_left, Rabs_right by lra. lra.
  - cbn. repeat split; lra.
Qed.
(** Without data neither Adachi's model nor zero is taken, whatever the messages say. *)
Theorem C195_fallback_refuted : forall ingaas gap x adachi wl, load_absorption ingaas gap (Err x) adachi false wl = Err x.
Proof. reflexivity. Qed.

(** * Quantum wells *)
(** SolveQWproperties never returns the layers, though it changes the device. *)
Theorem C195_qw_refuted : forall wl calc ss d, is_ok (snd (solve_qw wl calc ss d)) = false.
Proof. intros wl calc ss d. unfold solve_qw. cbn [snd]. destruct ss; [reflexivity|]. destruct (forallb _ _); reflexivity. Qed.
(** Layers of the device have the properties of the well, with the intrinsic density of the gap
    there; composition and width are kept. *)
Theorem C195_qw_device : forall wl calc ss d i x s, nth_error (d_layers d) i = Some x -> nth_error ss i = Some s ->
  exists y, nth_error (d_layers (fst (solve_qw wl calc ss d))) i = Some y /\ dl_comp y = dl_comp x /\ dl_width y = dl_width x /\ dl_label y = dl_label x /\
    p_gap (dl_props y) = q_gap s /\ p_aff (dl_props y) = q_aff s /\ p_me (dl_props y) = q_me s /\
    (0 <= q_Nc s * q_Nv s -> p_ni (dl_props y) ^ 2 = p_Nc (dl_props y) * p_Nv (dl_props y) * exp (- p_gap (dl_props y) / (kb * d_T d))) /\
    p_Nc (dl_props y) = q_Nc s /\ p_Nv (dl_props y) = q_Nv s /\ (calc = true -> p_abs (dl_props y) = Some (wl, q_abs s)) /\
    (calc = false -> p_abs (dl_props y) = p_abs (dl_props x)).
Proof.
  intros wl calc ss d i x s Hx Hs. unfold solve_qw. cbn [fst d_layers]. revert ss i Hx Hs. induction (d_layers d) as [|a l IH]; intros ss i Hx Hs; [destruct i; discriminate Hx|].
  destruct ss as [|b ss]; [destruct i; discriminate Hs|]. destruct i as [|i]; cbn [update_layers nth_error] in *; [|now apply IH].
  injection Hx as ->. injection Hs as ->. eexists. split; [reflexivity|]. cbn [update_layer dl_comp dl_width dl_label dl_props p_gap p_aff p_me p_ni p_Nc p_Nv p_abs].
  repeat split.
  - intros H. cbn [pow]. rewrite Rmult_1_r. apply sqrt_sqrt. apply Rmult_le_pos; [exact H|left; apply exp_pos].
  - intros ->. reflexivity.
  - intros ->. reflexivity.
Qed.
Example C195_qw_ex : snd (solve_qw [1; 2] true [Solved 1 1 1 1 1 [1; 0]] (Device 300 1 [ex_layer "well"] (Comp "GaAs" None))) = Err SystemExit /\
  snd (solve_qw [1; 2] false [Solved 1 1 1 1 1 [1; 0]] (Device 300 1 [ex_layer "well"] (Comp "GaAs" None))) = Err KeyError.
Proof. split; reflexivity. Qed.

(** Properties C19-C22: structures and solar cells. *)
From Coq Require Import Reals String List Bool ZArith Lia Lra Sorted.
From Verif Require Import Common StructModel.
Import ListNotations.
Open Scope R_scope.
Open Scope list_scope.

(** * Specification *)

(** What one growing operation adds: (layer, label) pairs in order; a rejected
    call adds nothing. *)
Definition added {L} (x : stop L) : list (L * label) :=
  match x with
  | SAppend l lb n => repeat (l, lb) (Z.to_nat n)
  | SAppendMultiple true ls None n =>
      concat (repeat (map (fun l => (l, None)) ls) (Z.to_nat n))
  | SAppendMultiple true ls (Some lbs) n =>
      if (length ls =? length lbs)%nat then concat (repeat (combine ls lbs) (Z.to_nat n)) else []
  | SAppendMultiple false _ _ _ => []
  end.

(** Positions of the elements satisfying [p], increasing. *)
Definition positions {L} (p : L -> bool) (l : list L) : list nat :=
  filter (fun i => match nth_error l i with Some x => p x | None => false end) (seq 0 (length l)).
Definition is_junction (e : element) : bool := match e_type e with TJunction => true | _ => false end.
Definition is_tunnel (e : element) : bool := match e_type e with TTunnel => true | _ => false end.

(** Sum of the widths of the layers carrying label [k]. *)
Definition width_of_label {L} (w : L -> R) (pairs : list (L * label)) (k : label) : R :=
  fold_right (fun p acc => (if label_eqb (snd p) k then w (fst p) else 0) + acc) 0 pairs.
Definition total_width {L} (w : L -> R) (ls : list L) : R :=
  fold_right (fun l acc => w l + acc) 0 ls.

(** * C19 *)
Lemma map_fst_combine {A B} (xs : list A) (ys : list B) :
  length xs = length ys -> map fst (combine xs ys) = xs.
Proof.
  revert ys. induction xs as [|x xs IH]; intros [|y ys] Hl; simpl in *; try lia; [reflexivity|].
  f_equal. apply IH. lia.
Qed.
Lemma map_snd_combine {A B} (xs : list A) (ys : list B) :
  length xs = length ys -> map snd (combine xs ys) = ys.
Proof.
  revert ys. induction xs as [|x xs IH]; intros [|y ys] Hl; simpl in *; try lia; [reflexivity|].
  f_equal. apply IH. lia.
Qed.

Lemma append_loop_spec {L} n (s : structure L) x lb :
  layers (append_loop n s x lb) = layers s ++ map fst (repeat (x, lb) n) /\
  labels (append_loop n s x lb) = labels s ++ map snd (repeat (x, lb) n).
Proof.
  revert s. induction n as [|n IH]; intros s; simpl.
  - now rewrite !app_nil_r.
  - destruct (IH (mkStructure (layers s ++ [x]) (labels s ++ [lb]))) as [H1 H2].
    rewrite H1, H2. simpl. now rewrite <- !app_assoc.
Qed.

Lemma extend_loop_spec {L} n (s : structure L) xs lbs :
  length xs = length lbs ->
  layers (extend_loop n s xs lbs) = layers s ++ map fst (concat (repeat (combine xs lbs) n)) /\
  labels (extend_loop n s xs lbs) = labels s ++ map snd (concat (repeat (combine xs lbs) n)).
Proof.
  intros Hl. revert s. induction n as [|n IH]; intros s; simpl.
  - now rewrite !app_nil_r.
  - destruct (IH (mkStructure (layers s ++ xs) (labels s ++ lbs))) as [H1 H2].
    rewrite H1, H2. simpl. rewrite !map_app, <- !app_assoc.
    rewrite (map_fst_combine _ _ Hl), (map_snd_combine _ _ Hl).
    split; reflexivity.
Qed.

Lemma combine_none {L} (ls : list L) :
  combine ls (repeat None (length ls)) = map (fun l => (l, None : label)) ls.
Proof. induction ls as [|l ls IH]; simpl; [reflexivity|]. now rewrite IH. Qed.

Lemma st_step_spec {L} (s : structure L) x :
  layers (st_step s x) = layers s ++ map fst (added x) /\
  labels (st_step s x) = labels s ++ map snd (added x).
Proof.
  destruct x as [l lb n|[] ls [lbs|] n]; simpl.
  - apply append_loop_spec.
  - unfold append_multiple; simpl. destruct (Nat.eqb_spec (length ls) (length lbs)) as [E|E]; simpl.
    + now apply extend_loop_spec.
    + now rewrite !app_nil_r.
  - unfold append_multiple; simpl. rewrite <- combine_none.
    apply extend_loop_spec. now rewrite repeat_length.
  - now rewrite !app_nil_r.
  - now rewrite !app_nil_r.
Qed.

(** Starting from any list of layers, after any history of append and
    append_multiple calls (any repeat counts, any labels, rejected calls
    included), the layers are the initial ones followed by exactly what the
    calls added, in order, and the i-th label is the one given with the i-th
    layer (None for the initial ones); so there is one label per layer. *)
Theorem C19_labels_aligned :
  forall (L : Type) (ls : list L) (h : list (stop L)),
    let s := st_run (structure_init ls) h in
    let pairs := map (fun l => (l, None)) ls ++ concat (map added h) in
    layers s = map fst pairs /\ labels s = map snd pairs /\
    length (labels s) = length (layers s).
Proof.
  intros L ls h s pairs.
  assert (H : layers s = map fst pairs /\ labels s = map snd pairs).
  { unfold s, pairs. clear s pairs. induction h as [|x h IH] using rev_ind.
    - simpl. rewrite app_nil_r, !map_map. split; [now rewrite map_id|].
      clear. induction ls as [|x ls IH]; simpl; [reflexivity|]. f_equal. exact IH.
    - unfold st_run in *. rewrite fold_left_app. simpl.
      destruct (st_step_spec (fold_left st_step h (structure_init ls)) x) as [H1 H2].
      destruct IH as [I1 I2]. rewrite H1, H2, I1, I2, (map_app added), concat_app. simpl.
      rewrite app_nil_r, !map_app, !app_assoc. split; reflexivity. }
  destruct H as [H1 H2]. split; [exact H1|]. split; [exact H2|].
  now rewrite H1, H2, !map_length.
Qed.
Print Assumptions C19_labels_aligned.

Example C19_case :
  let h := [SAppend 7%nat (Some "a"%string) 2; SAppendMultiple true [1%nat; 2%nat] (Some [None; None; None]) 3;
            SAppendMultiple true [1%nat; 2%nat] None 2; SAppend 9%nat None (-1)] in
  layers (st_run (structure_init [5%nat]) h) = [5; 7; 7; 1; 2; 1; 2]%nat.
Proof. reflexivity. Qed.

(** The inherited list methods do not keep the labels: after [extend] there are
    layers without a label, after [pop] labels without a layer. *)
Theorem C19_list_methods_refuted :
  exists (s : structure nat) xs,
    length (labels s) = length (layers s) /\
    length (labels (list_extend s xs)) <> length (layers (list_extend s xs)) /\
    length (labels (list_pop s)) <> length (layers (list_pop s)).
Proof. exists (structure_init [1%nat]), [2%nat]. simpl. repeat split; discriminate. Qed.
Print Assumptions C19_list_methods_refuted.

(** * C20 *)
Lemma label_eqb_eq a b : label_eqb a b = true <-> a = b.
Proof.
  destruct a, b; simpl; try (split; [discriminate|congruence]); [|tauto].
  rewrite String.eqb_eq. split; congruence.
Qed.

Definition assoc_sum (d : list (label * R)) : R := fold_right (fun p acc => snd p + acc) 0 d.
Definition lookup_w (d : list (label * R)) (k : label) : R :=
  fold_right (fun p acc => if label_eqb (fst p) k then snd p else acc) 0 d.

Lemma add_width_spec d k w :
  assoc_sum (add_width d k w) = assoc_sum d + w /\
  (NoDup (map fst d) -> NoDup (map fst (add_width d k w))) /\
  (forall k', lookup_w (add_width d k w) k' = lookup_w d k' + (if label_eqb k k' then w else 0)) /\
  (forall k', In k' (map fst (add_width d k w)) <-> In k' (map fst d) \/ k' = k).
Proof.
  induction d as [|[k0 v0] d IH]; simpl.
  - repeat split; intros; try lra; try tauto.
    + constructor; [simpl; tauto|constructor].
    + destruct (label_eqb k k'); lra.
    + destruct H as [->|[]]. now right.
    + destruct H as [[]| ->]. now left.
  - destruct IH as (I1 & I2 & I3 & I4). destruct (label_eqb k0 k) eqn:E; simpl.
    + apply label_eqb_eq in E. subst k0. repeat split.
      * lra.
      * tauto.
      * intros k'. destruct (label_eqb k k'); lra.
      * tauto.
      * intros [H| ->]; [tauto|now left].
    + repeat split.
      * rewrite I1. lra.
      * intros H. inversion H; subst. constructor; [|now apply I2].
        rewrite I4. intros [Hi|Hi]; [tauto|]. subst.
        assert (label_eqb k k = true) by now apply label_eqb_eq. congruence.
      * intros k'. rewrite I3. destruct (label_eqb k0 k') eqn:E2; [|lra].
        destruct (label_eqb k k') eqn:E3; [|lra].
        apply label_eqb_eq in E2, E3. subst. assert (label_eqb k' k' = true) by now apply label_eqb_eq. congruence.
      * rewrite I4. tauto.
      * rewrite I4. tauto.
Qed.

Lemma aggregate_spec {L} (w : L -> R) pairs d t :
  let r := aggregate w pairs d t in
  assoc_sum (fst r) = assoc_sum d + total_width w (map fst pairs) /\
  snd r = t + total_width w (map fst pairs) /\
  (NoDup (map fst d) -> NoDup (map fst (fst r))) /\
  (forall k, lookup_w (fst r) k = lookup_w d k + width_of_label w pairs k) /\
  (forall k, In k (map fst (fst r)) <-> In k (map fst d) \/ In k (map snd pairs)).
Proof.
  revert d t. induction pairs as [|[l lb] pairs IH]; intros d t; simpl.
  - repeat split; intros; try lra; tauto.
  - destruct (IH (add_width d lb (w l)) (t + w l)) as (I1 & I2 & I3 & I4 & I5).
    destruct (add_width_spec d lb (w l)) as (A1 & A2 & A3 & A4).
    repeat split.
    + rewrite I1, A1. lra.
    + rewrite I2. lra.
    + intros H. apply I3, A2, H.
    + intros k. rewrite I4, A3. lra.
    + rewrite I5, A4. intuition.
    + rewrite I5, A4. intuition.
Qed.

Lemma lookup_in d k v : NoDup (map fst d) -> In (k, v) d -> lookup_w d k = v.
Proof.
  induction d as [|[k0 v0] d IH]; simpl; intros H Hin; [tauto|].
  inversion H; subst. destruct Hin as [E|Hin].
  - injection E as -> ->. assert (label_eqb k k = true) as -> by now apply label_eqb_eq. reflexivity.
  - destruct (label_eqb k0 k) eqn:E; [|now apply IH].
    apply label_eqb_eq in E. subst. exfalso. apply H2.
    change k with (fst (k, v)). now apply in_map.
Qed.

Lemma total_nonneg {L} (w : L -> R) ls : (forall l, In l ls -> 0 <= w l) -> 0 <= total_width w ls.
Proof.
  induction ls as [|l ls IH]; simpl; intros H; [lra|].
  assert (0 <= w l) by (apply H; now left).
  assert (0 <= total_width w ls) by (apply IH; intros; apply H; now right). lra.
Qed.

Lemma label_part {L} (w : L -> R) pairs k :
  (forall l, In l (map fst pairs) -> 0 <= w l) ->
  0 <= width_of_label w pairs k <= total_width w (map fst pairs).
Proof.
  induction pairs as [|[l lb] pairs IH]; simpl; intros H; [lra|].
  assert (0 <= w l) by (apply H; now left).
  assert (0 <= width_of_label w pairs k <= total_width w (map fst pairs))
    by (apply IH; intros; apply H; now right).
  destruct (label_eqb lb k); lra.
Qed.

Lemma sum_map_div d t : t <> 0 -> assoc_sum (map (fun p => (fst p, snd p / t)) d) = assoc_sum d / t.
Proof.
  intros Ht. induction d as [|[k v] d IH]; simpl; [field; lra|]. rewrite IH. field; lra.
Qed.

(** For a structure whose labels are aligned, with non-negative widths and
    positive total width: relative_widths succeeds, has exactly the labels of
    the structure as keys (each once), gives each label the fraction of the
    total width that its layers carry, each fraction is in [0,1] and they add
    up to 1. *)
Theorem C20_relative_widths_partition :
  forall (L : Type) (w : L -> R) (s : structure L),
    length (labels s) = length (layers s) ->
    (forall l, In l (layers s) -> 0 <= w l) ->
    0 < total_width w (layers s) ->
    exists d, relative_widths w s = Ok d /\
      NoDup (map fst d) /\
      (forall k, In k (map fst d) <-> In k (labels s)) /\
      (forall k f, In (k, f) d ->
         f = width_of_label w (combine (layers s) (labels s)) k / total_width w (layers s) /\
         0 <= f <= 1) /\
      fold_right (fun p acc => snd p + acc) 0 d = 1.
Proof.
  intros L w s Hlen Hpos Htot.
  set (pairs := combine (layers s) (labels s)).
  assert (Hf : map fst pairs = layers s).
  { unfold pairs. apply map_fst_combine. now symmetry. }
  assert (Hs : map snd pairs = labels s).
  { unfold pairs. apply map_snd_combine. now symmetry. }
  destruct (aggregate_spec w pairs [] 0) as (A1 & A2 & A3 & A4 & A5).
  unfold relative_widths. fold pairs. destruct (aggregate w pairs [] 0) as [d total] eqn:E.
  simpl in *. rewrite Hf in *. rewrite Rplus_0_l in A1, A2. subst total.
  destruct d as [|p0 d0] eqn:Ed.
  - simpl in A1. lra.
  - rewrite <- Ed in *. clear Ed. destruct (Req_EM_T (total_width w (layers s)) 0) as [|Hne]; [lra|].
    eexists. split; [reflexivity|]. split; [|split; [|split]].
    + rewrite map_map. simpl. apply A3. constructor.
    + intros k. rewrite map_map. simpl. rewrite A5, Hs. tauto.
    + intros k f Hin. apply in_map_iff in Hin as ([k' v] & Heq & Hin). simpl in Heq.
      injection Heq as -> <-.
      assert (Hv : v = width_of_label w pairs k).
      { rewrite <- (lookup_in d k v); [rewrite A4; lra|apply A3; constructor|assumption]. }
      rewrite Hv. split; [reflexivity|].
      assert (B : 0 <= width_of_label w pairs k <= total_width w (map fst pairs)).
      { apply label_part. rewrite Hf. assumption. }
      rewrite Hf in B. split.
      * apply Rmult_le_pos; [lra|]. left. now apply Rinv_0_lt_compat.
      * apply Rmult_le_reg_r with (total_width w (layers s)); [lra|].
        unfold Rdiv. rewrite Rmult_assoc, Rinv_l by lra. lra.
    + pose proof (sum_map_div d _ Hne) as S. unfold assoc_sum in S, A1. rewrite S, A1. field. lra.
Qed.
Print Assumptions C20_relative_widths_partition.

Example C20_case :
  let s := st_run (structure_init [1; 2]) [SAppend 3 (Some "well"%string) 2] in
  length (labels s) = length (layers s) /\
  (forall l, In l (layers s) -> 0 <= (fun x => x) l) /\ 0 < total_width (fun x => x) (layers s).
Proof.
  split; [reflexivity|]. split.
  - intros l Hl. simpl in Hl. repeat destruct Hl as [<-|Hl]; try lra.
  - simpl. lra.
Qed.

(** * C21 *)
Lemma positions_app {L} (p : L -> bool) l x :
  positions p (l ++ [x]) = positions p l ++ (if p x then [length l] else []).
Proof.
  unfold positions. rewrite app_length. simpl. rewrite Nat.add_1_r, seq_S, filter_app. f_equal.
  - apply filter_ext_in. intros i Hi. apply in_seq in Hi. now rewrite nth_error_app1 by lia.
  - simpl. rewrite nth_error_app2 by lia. rewrite Nat.sub_diag. simpl.
    destruct (p x); reflexivity.
Qed.

Definition book_ok (c : cell) (l : list element) : Prop :=
  c_jidx c = positions is_junction l /\ c_tidx c = positions is_tunnel l /\
  c_junctions c = length (positions is_junction l).

Lemma sort_book c l e :
  book_ok c l -> book_ok (sort_layer_type c e (length l)) (l ++ [e]).
Proof.
  intros (H1 & H2 & H3). unfold book_ok, sort_layer_type. rewrite !positions_app.
  unfold is_junction at 2 4, is_tunnel at 2.
  destruct (e_type e); simpl; rewrite ?app_nil_r; repeat split; try assumption;
  try (now rewrite H1); try (now rewrite H2).
  rewrite app_length. simpl. rewrite H3. lia.
Qed.

Lemma init_loop_book c l es :
  book_ok c l -> book_ok (init_loop c (length l) es) (l ++ es) /\
  c_struct (init_loop c (length l) es) = c_struct c.
Proof.
  revert c l. induction es as [|e es IH]; intros c l H; simpl.
  - now rewrite app_nil_r.
  - specialize (IH (mkCell (c_struct (sort_layer_type c e (length l)))
      (c_junctions (sort_layer_type c e (length l))) (c_jidx (sort_layer_type c e (length l)))
      (c_tidx (sort_layer_type c e (length l))) (c_Rs (sort_layer_type c e (length l)) + rs_of e)) (l ++ [e])).
    rewrite app_length in IH. simpl in IH. rewrite Nat.add_1_r in IH.
    destruct IH as [I1 I2].
    + pose proof (sort_book c l e H) as Hb. unfold book_ok in *. simpl. exact Hb.
    + rewrite <- app_assoc in I1. simpl in I1. split; [exact I1|].
      rewrite I2. simpl. unfold sort_layer_type. now destruct (e_type e).
Qed.

Definition cell_inv (c : cell) : Prop := book_ok c (layers (c_struct c)).

Lemma cell_append_loop_inv n c e lb :
  cell_inv c -> cell_inv (cell_append_loop n c e lb) /\
  layers (c_struct (cell_append_loop n c e lb)) = layers (c_struct c) ++ map fst (repeat (e, lb) n) /\
  labels (c_struct (cell_append_loop n c e lb)) = labels (c_struct c) ++ map snd (repeat (e, lb) n) /\
  c_Rs (cell_append_loop n c e lb) = c_Rs c.
Proof.
  revert c. induction n as [|n IH]; intros c H; simpl.
  - rewrite !app_nil_r. auto.
  - set (c1 := sort_layer_type c e (length (layers (c_struct c)))).
    assert (Hs : c_struct c1 = c_struct c /\ c_Rs c1 = c_Rs c).
    { unfold c1, sort_layer_type. destruct (e_type e); split; reflexivity. }
    destruct Hs as [Hs Hr].
    destruct (IH (mkCell (append (c_struct c1) e lb 1) (c_junctions c1) (c_jidx c1) (c_tidx c1) (c_Rs c1)))
      as (I1 & I2 & I3 & I4).
    + unfold cell_inv. simpl. unfold append; simpl. rewrite Hs. unfold book_ok. simpl.
      exact (sort_book c _ e H).
    + split; [exact I1|]. rewrite I2, I3, I4. unfold append; simpl. rewrite Hs, <- !app_assoc. simpl. auto.
Qed.

Lemma cell_append_list_inv c es lbs :
  length es = length lbs -> cell_inv c ->
  cell_inv (cell_append_list c es lbs) /\
  layers (c_struct (cell_append_list c es lbs)) = layers (c_struct c) ++ es /\
  labels (c_struct (cell_append_list c es lbs)) = labels (c_struct c) ++ lbs /\
  c_Rs (cell_append_list c es lbs) = c_Rs c.
Proof.
  revert c lbs. induction es as [|e es IH]; intros c [|lb lbs] Hl H; simpl in *; try lia.
  - rewrite !app_nil_r. auto.
  - destruct (cell_append_loop_inv 1 c e lb H) as (J1 & J2 & J3 & J4).
    destruct (IH (cell_append c e lb 1) lbs) as (I1 & I2 & I3 & I4); [lia|exact J1|].
    unfold cell_append in *. change (Z.to_nat 1) with 1%nat in *.
    split; [exact I1|]. rewrite I2, I3, I4, J2, J3, J4. simpl. rewrite <- !app_assoc. auto.
Qed.

Lemma cell_append_list_n_inv n c es lbs :
  length es = length lbs -> cell_inv c ->
  cell_inv (cell_append_list_n n c es lbs) /\
  layers (c_struct (cell_append_list_n n c es lbs)) = layers (c_struct c) ++ map fst (concat (repeat (combine es lbs) n)) /\
  labels (c_struct (cell_append_list_n n c es lbs)) = labels (c_struct c) ++ map snd (concat (repeat (combine es lbs) n)) /\
  c_Rs (cell_append_list_n n c es lbs) = c_Rs c.
Proof.
  intros Hl. revert c. induction n as [|n IH]; intros c H; simpl.
  - rewrite !app_nil_r. auto.
  - destruct (cell_append_list_inv c es lbs Hl H) as (J1 & J2 & J3 & J4).
    destruct (IH _ J1) as (I1 & I2 & I3 & I4).
    split; [exact I1|]. rewrite I2, I3, I4, J2, J3, J4, !map_app, <- !app_assoc.
    rewrite (map_fst_combine _ _ Hl), (map_snd_combine _ _ Hl).
    auto.
Qed.

Lemma cell_step_inv c x :
  cell_inv c ->
  cell_inv (cell_step c x) /\
  layers (c_struct (cell_step c x)) = layers (c_struct c) ++ map fst (added x) /\
  labels (c_struct (cell_step c x)) = labels (c_struct c) ++ map snd (added x) /\
  c_Rs (cell_step c x) = c_Rs c.
Proof.
  intros H. destruct x as [e lb n|[] es [lbs|] n]; simpl.
  - now apply cell_append_loop_inv.
  - unfold cell_append_multiple; simpl. destruct (Nat.eqb_spec (length es) (length lbs)) as [E|E]; simpl.
    + now apply cell_append_list_n_inv.
    + rewrite !app_nil_r. auto.
  - unfold cell_append_multiple; simpl. rewrite <- combine_none.
    apply cell_append_list_n_inv; [now rewrite repeat_length|assumption].
  - rewrite !app_nil_r. auto.
  - rewrite !app_nil_r. auto.
Qed.

Lemma cell_run_inv c h :
  cell_inv c ->
  cell_inv (cell_run c h) /\
  layers (c_struct (cell_run c h)) = layers (c_struct c) ++ map fst (concat (map added h)) /\
  labels (c_struct (cell_run c h)) = labels (c_struct c) ++ map snd (concat (map added h)) /\
  c_Rs (cell_run c h) = c_Rs c.
Proof.
  revert c. induction h as [|x h IH]; intros c H; simpl.
  - rewrite !app_nil_r. auto.
  - destruct (cell_step_inv c x H) as (J1 & J2 & J3 & J4).
    destruct (IH _ J1) as (I1 & I2 & I3 & I4). unfold cell_run in *. simpl.
    split; [exact I1|]. rewrite I2, I3, I4, J2, J3, J4, !map_app, <- !app_assoc. auto.
Qed.

Lemma cell_init_inv es R0 :
  let c := init_loop (mkCell (structure_init es) 0 [] [] R0) 0 es in
  cell_inv c /\ c_struct c = structure_init es.
Proof.
  intros c. destruct (init_loop_book (mkCell (structure_init es) 0 [] [] R0) [] es) as [H1 H2].
  - repeat split.
  - simpl in H1, H2. split; [|exact H2]. unfold cell_inv. unfold c. rewrite H2. exact H1.
Qed.

Lemma init_loop_rs c i es : c_Rs (init_loop c i es) = c_Rs c + fold_right (fun e a => rs_of e + a) 0 es.
Proof.
  revert c i. induction es as [|e es IH]; intros c i; simpl; [lra|].
  rewrite IH. simpl. assert (c_Rs (sort_layer_type c e i) = c_Rs c) as ->; [|lra].
  unfold sort_layer_type. now destruct (e_type e).
Qed.

Lemma positions_sorted {L} (p : L -> bool) l : StronglySorted lt (positions p l).
Proof.
  unfold positions. generalize (length l). intros n.
  generalize (fun i => match nth_error l i with Some x => p x | None => false end). intros q.
  assert (H : forall n k, StronglySorted lt (filter q (seq k n)) /\
             forall x, In x (filter q (seq k n)) -> (k <= x)%nat).
  { clear. induction n as [|n IH]; intros k; simpl; [split; [constructor|intros x []]|].
    destruct (IH (S k)) as [H1 H2]. destruct (q k); split; try assumption.
    - constructor; [assumption|]. apply Forall_forall. intros x Hx. apply H2 in Hx. lia.
    - intros x [<-|Hx]; [lia|]. apply H2 in Hx. lia.
    - intros x Hx. apply H2 in Hx. lia. }
  apply H.
Qed.

(** After construction from any list and any history of append and
    append_multiple: the elements and labels are the expected ones; the junction
    (tunnel) indices are exactly the positions of the elements of type Junction
    (TunnelJunction), increasing; the counter is their number; solar_cell(i) is
    the i-th junction for 0 <= i < number of junctions and raises IndexError for
    larger i; and update_junction touches that same element. *)
Theorem C21_junction_bookkeeping :
  forall es R0 h c0,
    cell_init true es R0 = Ok c0 ->
    let c := cell_run c0 h in
    let all := es ++ map fst (concat (map added h)) in
    layers (c_struct c) = all /\
    length (labels (c_struct c)) = length all /\
    c_jidx c = positions is_junction all /\ StronglySorted lt (c_jidx c) /\
    c_tidx c = positions is_tunnel all /\
    c_junctions c = length (positions is_junction all) /\
    (forall i k, nth_error (positions is_junction all) i = Some k ->
       exists e, nth_error all k = Some e /\ e_type e = TJunction /\
         cell_call c (Z.of_nat i) = Ok e /\ update_junction_target c (Z.of_nat i) = Some k) /\
    (forall i, (c_junctions c <= i)%nat ->
       cell_call c (Z.of_nat i) = Err IndexError /\ update_junction_target c (Z.of_nat i) = None).
Proof.
  intros es R0 h c0 Hc0 c all. injection Hc0 as <-.
  destruct (cell_init_inv es R0) as [H1 H2].
  destruct (cell_run_inv _ h H1) as (I1 & I2 & I3 & I4).
  rewrite H2 in I2, I3. simpl in I2, I3. fold c in I1, I2, I3, I4. fold all in I2.
  unfold cell_inv in I1. rewrite I2 in I1. destruct I1 as (B1 & B2 & B3).
  split; [exact I2|]. split.
  { rewrite I3. unfold all. rewrite !app_length, repeat_length, !map_length. reflexivity. }
  split; [exact B1|]. split; [rewrite B1; apply positions_sorted|].
  split; [exact B2|]. split; [exact B3|].
  assert (Hlt : forall k, In k (positions is_junction all) ->
     exists e, nth_error all k = Some e /\ e_type e = TJunction /\ (k < length all)%nat).
  { intros k Hk. unfold positions in Hk. apply filter_In in Hk as [Hk1 Hk2].
    apply in_seq in Hk1. destruct (nth_error all k) as [e|]; [|discriminate].
    exists e. split; [reflexivity|]. split; [|lia]. unfold is_junction in Hk2.
    destruct (e_type e); congruence. }
  assert (Hidx : forall (l : list nat) i, py_index l (Z.of_nat i) =
      match nth_error l i with Some x => Ok x | None => Err IndexError end).
  { intros l i. unfold py_index. destruct (Z.ltb_spec (Z.of_nat i) 0); [lia|].
    destruct (nth_error l i) eqn:E.
    - assert (i < length l)%nat by (apply nth_error_Some; congruence).
      destruct (Z.leb_spec 0 (Z.of_nat i)); [|lia]. destruct (Z.ltb_spec (Z.of_nat i) (Z.of_nat (length l))); [|lia].
      simpl. now rewrite Nat2Z.id, E.
    - apply nth_error_None in E. destruct (Z.ltb_spec (Z.of_nat i) (Z.of_nat (length l))); [lia|].
      now rewrite andb_false_r. }
  split.
  - intros i k Hik. destruct (Hlt k) as (e & He & Ht & Hk). { eapply nth_error_In; eassumption. }
    exists e. split; [exact He|]. split; [exact Ht|].
    unfold cell_call, update_junction_target. rewrite Hidx, B1, Hik. simpl. rewrite I2. split.
    + unfold py_index. destruct (Z.ltb_spec (Z.of_nat k) 0); [lia|].
      destruct (Z.leb_spec 0 (Z.of_nat k)); [|lia]. destruct (Z.ltb_spec (Z.of_nat k) (Z.of_nat (length all))); [|lia].
      simpl. now rewrite Nat2Z.id, He.
    + destruct (Nat.ltb_spec k (length all)); [reflexivity|lia].
  - intros i Hi. unfold cell_call, update_junction_target. rewrite Hidx, B1.
    assert (nth_error (positions is_junction all) i = None) as ->.
    { apply nth_error_None. lia. }
    split; reflexivity.
Qed.
Print Assumptions C21_junction_bookkeeping.

Definition exJ := mkElement TJunction (Some 0.5) 1.
Definition exT := mkElement TTunnel None 2.
Definition exL := mkElement TLayer None 3.
Example C21_case :
  exists c0, cell_init true [exL; exJ; exT] 0 = Ok c0 /\
    c_jidx (cell_run c0 [SAppend exJ None 2; SAppendMultiple true [exT; exL] None 1]) = [1; 3; 4]%nat /\
    c_tidx (cell_run c0 [SAppend exJ None 2; SAppendMultiple true [exT; exL] None 1]) = [2; 5]%nat.
Proof. eexists. split; [reflexivity|]. split; reflexivity. Qed.

(** Negative indices are accepted too: update_junction(-1) changes the last
    junction instead of reporting an error. *)
Theorem C21_negative_index :
  forall es R0 h c0, cell_init true es R0 = Ok c0 ->
    let c := cell_run c0 h in
    c_jidx c <> [] -> update_junction_target c (-1) = Some (last (c_jidx c) 0%nat).
Proof.
  intros es R0 h c0 Hc0 c Hne. injection Hc0 as <-.
  destruct (cell_run_inv _ h (proj1 (cell_init_inv es R0))) as [(B1 & _ & _) _]. fold c in B1.
  remember (last (c_jidx c) 0%nat) as k eqn:Hk. symmetry in Hk. unfold update_junction_target, py_index.
  destruct (c_jidx c) as [|a l] eqn:E using rev_ind; [congruence|]. clear IHl.
  rewrite app_length. simpl length. rewrite last_last in Hk. subst a.
  destruct (Z.ltb_spec (-1) 0); [|lia].
  destruct (Z.leb_spec 0 (-1 + Z.of_nat (length l + 1))); [|lia].
  destruct (Z.ltb_spec (-1 + Z.of_nat (length l + 1)) (Z.of_nat (length l + 1))); [|lia]. cbn [andb].
  assert (Z.to_nat (-1 + Z.of_nat (length l + 1)) = length l) as -> by lia.
  rewrite nth_error_app2 by lia. rewrite Nat.sub_diag. simpl.
  assert (In k (positions is_junction (layers (c_struct c)))) as Hin.
  { rewrite <- B1. apply in_or_app. right. now left. }
  unfold positions in Hin. apply filter_In in Hin as [Hin _]. apply in_seq in Hin.
  destruct (Nat.ltb_spec k (length (layers (c_struct c)))); [reflexivity|lia].
Qed.
Print Assumptions C21_negative_index.
Example C21_negative_case :
  exists c0, cell_init true [exJ; exT; exJ] 0 = Ok c0 /\ c_jidx (cell_run c0 []) <> [] /\ last (c_jidx c0) 0%nat = 2%nat.
Proof. eexists. split; [reflexivity|]. split; [discriminate|reflexivity]. Qed.

(** * C22 *)

(** The series resistance an element contributes: its R_series attribute if it has one. *)
Definition series (e : element) : R := match e_Rs e with Some r => r | None => 0 end.
Lemma series_rs e : rs_of e = series e.
Proof. reflexivity. Qed.
Lemma series_sum l : fold_right (fun e a => rs_of e + a) 0 l = fold_right (fun e a => series e + a) 0 l.
Proof. induction l as [|e l IH]; simpl; [reflexivity|]. rewrite IH, series_rs. reflexivity. Qed.

(** The constructor adds the R_series of every element to its own argument;
    appending never changes R_series.  Hence the two ways of building a cell
    agree exactly when the appended elements carry a total of zero.  Missing for
    the full property: elements with a series resistance that are appended
    (refuted below). *)
Theorem C22_series_resistance_partial :
  forall es R0 h c0,
    cell_init true es R0 = Ok c0 ->
    c_Rs c0 = R0 + fold_right (fun e a => series e + a) 0 es /\
    c_Rs (cell_run c0 h) = c_Rs c0 /\
    (forall c1, cell_init true (es ++ map fst (concat (map added h))) R0 = Ok c1 ->
       (c_Rs (cell_run c0 h) = c_Rs c1 <->
        fold_right (fun e a => series e + a) 0 (map fst (concat (map added h))) = 0)).
Proof.
  intros es R0 h c0 H. injection H as <-.
  destruct (cell_init_inv es R0) as [H1 H2].
  destruct (cell_run_inv _ h H1) as (I1 & I2 & I3 & I4).
  rewrite init_loop_rs, series_sum. simpl. split; [reflexivity|]. split; [rewrite I4, init_loop_rs, series_sum; reflexivity|].
  intros c1 E. injection E as <-. rewrite I4, !init_loop_rs. rewrite (series_sum es), (series_sum (es ++ _)). simpl.
  set (new := map fst (concat (map added h))).
  assert (Happ : fold_right (fun e a => series e + a) 0 (es ++ new)
      = fold_right (fun e a => series e + a) 0 es + fold_right (fun e a => series e + a) 0 new).
  { clear. induction es as [|e es IH]; simpl; [lra|]. rewrite IH. lra. }
  rewrite Happ. split; intros; lra.
Qed.
Print Assumptions C22_series_resistance_partial.

Example C22_case : exists c0, cell_init true [exL; exJ] 1 = Ok c0 /\ rs_of exJ = 0.5.
Proof. eexists. split; reflexivity. Qed.

Theorem C22_series_resistance_refuted :
  exists e c0 c1,
    cell_init true [] 0 = Ok c0 /\ cell_init true [e] 0 = Ok c1 /\
    layers (c_struct (cell_run c0 [SAppend e None 1])) = layers (c_struct c1) /\
    c_Rs (cell_run c0 [SAppend e None 1]) <> c_Rs c1.
Proof.
  exists exJ. eexists. eexists. split; [reflexivity|]. split; [reflexivity|].
  split; [reflexivity|]. simpl. unfold rs_of; simpl. lra.
Qed.
Print Assumptions C22_series_resistance_refuted.

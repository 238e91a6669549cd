(** Properties C24-C26, C72-C74: preparing a cell and dispatching tasks. *)
From Coq Require Import Reals String List Bool Arith Lia Lra.
From Verif Require Import Common NumModel SolverModel.
Import ListNotations.
Open Scope R_scope.
Open Scope string_scope.
Open Scope list_scope.

(** * Specification *)

(** Sum of a list of reals. *)
Definition total (l : list R) : R := fold_right Rplus 0 l.
(** The width attribute of the element (0 if there is none; never used then). *)
Definition w_of (o : obj) : R := match o_width o with Some w => w | None => 0 end.

(** The width an element must have after preparation: a layer keeps its width,
    junctions and tunnel junctions get the sum of their layers, 2D and DB
    junctions keep their own width or get 1 micron. *)
Definition right_width (before : obj) (w : R) : Prop :=
  match o_type before with
  | OLayer | OOther => o_width before = Some w
  | OTunnel => w = total (o_layers before)
  | OJunction =>
      if kind_is before "2D" || kind_is before "DB"
      then match o_width before with Some x => w = x | None => w = 1 / 1000000 end
      else w = total (o_layers before)
  end.

(** * Preparation *)
Lemma fold_plus l a : fold_left Rplus l a = a + total l.
Proof. revert a. induction l as [|x l IH]; intros a; simpl; [lra|]. rewrite IH. lra. Qed.
Lemma sum_widths_total l : sum_widths l = total l.
Proof. unfold sum_widths. rewrite fold_plus. lra. Qed.
Lemma total_app a b : total (a ++ b) = total a + total b.
Proof. induction a as [|x a IH]; simpl; [lra|]. rewrite IH. lra. Qed.

Lemma upd_same h i o : upd h i o i = o.
Proof. unfold upd. now rewrite Nat.eqb_refl. Qed.
Lemma upd_other h i j o : j <> i -> upd h i o j = h j.
Proof. intros H. unfold upd. destruct (Nat.eqb_spec j i); [contradiction|reflexivity]. Qed.

Lemma visit_spec o o' lw : visit o = Ok (o', lw) ->
  o_type o' = o_type o /\ o_kind o' = o_kind o /\ o_layers o' = o_layers o /\
  o_absorbed o' = o_absorbed o /\ (forall w, o_width o' = Some w -> right_width o w).
Proof.
  unfold visit, right_width, kind_is. destruct (o_type o) eqn:Et.
  - destruct (o_width o) eqn:Ew; [|discriminate]. intros [= <- <-]. repeat split; congruence.
  - intros [= <- <-]. repeat split; simpl; try assumption. intros w [= <-]. apply sum_widths_total.
  - destruct (o_kind o) as [k|] eqn:Ek; [|discriminate].
    destruct (String.eqb k "2D" || String.eqb k "DB").
    + destruct (o_width o) eqn:Ew; intros [= <- <-]; repeat split; simpl; try assumption; congruence.
    + intros [= <- <-]. repeat split; simpl; try assumption. intros w [= <-]. apply sum_widths_total.
  - intros [= <- <-]. repeat split; congruence.
Qed.

Lemma prepare_loop_kind h ids off lw h' off' lw' :
  prepare_loop h ids off lw = Ok (h', off', lw') ->
  forall i, o_kind (h' i) = o_kind (h i) /\ o_absorbed (h' i) = o_absorbed (h i) /\ o_type (h' i) = o_type (h i).
Proof.
  revert h off lw. induction ids as [|i ids IH]; intros h off lw H j; simpl in H.
  - injection H as <- _ _. auto.
  - destruct (visit (h i)) as [[o l]|e] eqn:Ev; simpl in H; [|discriminate].
    destruct (o_width o) as [w|]; [|discriminate].
    destruct (visit_spec _ _ _ Ev) as (V1 & V2 & V3 & V4 & V5).
    destruct (IH _ _ _ H j) as (I1 & I2 & I3). rewrite I1, I2, I3.
    destruct (Nat.eq_dec j i) as [->|Hj].
    + rewrite upd_same. simpl. auto.
    + rewrite upd_other by assumption. auto.
Qed.

Lemma prepare_loop_outside h ids off lw h' off' lw' :
  prepare_loop h ids off lw = Ok (h', off', lw') ->
  forall i, ~ In i ids -> h' i = h i.
Proof.
  revert h off lw. induction ids as [|i ids IH]; intros h off lw H j Hj; simpl in *.
  - injection H as <- _ _. auto.
  - destruct (visit (h i)) as [[o l]|e]; simpl in H; [|discriminate].
    destruct (o_width o) as [w|]; [|discriminate].
    rewrite (IH _ _ _ H) by tauto. apply upd_other. intros ->. tauto.
Qed.

Lemma prepare_loop_spec h ids off lw h' off' lw' :
  NoDup ids ->
  prepare_loop h ids off lw = Ok (h', off', lw') ->
  off' = off + total (map (fun i => w_of (h' i)) ids) /\
  forall k i, nth_error ids k = Some i ->
    o_offset (h' i) = Some (off + total (map (fun j => w_of (h' j)) (firstn k ids))) /\
    exists w, o_width (h' i) = Some w /\ right_width (h i) w.
Proof.
  revert h off lw. induction ids as [|i ids IH]; intros h off lw Hnd H; simpl in H.
  - injection H as <- <- _. simpl. split; [lra|]. intros [|k] i Hi; discriminate.
  - inversion Hnd as [|? ? Hi Hnd']; subst.
    destruct (visit (h i)) as [[o l]|e] eqn:Ev; simpl in H; [|discriminate].
    destruct (o_width o) as [w|] eqn:Ew; [|discriminate].
    destruct (visit_spec _ _ _ Ev) as (V1 & V2 & V3 & V4 & V5).
    assert (Hh : h' i = set_offset o off).
    { rewrite (prepare_loop_outside _ _ _ _ _ _ _ H i Hi). apply upd_same. }
    assert (Hw : w_of (h' i) = w).
    { rewrite Hh. unfold w_of. simpl. now rewrite Ew. }
    destruct (IH _ _ _ Hnd' H) as [H1 H2]. simpl. rewrite Hw. split; [rewrite H1; lra|].
    intros [|k] j Hj; simpl in *.
    + injection Hj as <-. rewrite Hh. simpl. split; [f_equal; lra|].
      exists w. split; [assumption|]. now apply V5.
    + destruct (H2 k j Hj) as [O1 (w' & W1 & W2)]. rewrite Hw. split.
      * rewrite O1. f_equal. lra.
      * exists w'. split; [assumption|]. rewrite upd_other in W2; [assumption|].
        intros ->. apply Hi. eapply nth_error_In. eassumption.
Qed.

Lemma prepare_ok c o c' o' : prepare c o = Ok (c', o') ->
  exists h w lw, prepare_loop (sc_heap c) (sc_ids c) 0 [] = Ok (h, w, lw) /\
    c' = set_cell c h (Some w) /\
    process_position h (sc_ids c) w lw (opt_position o) = Ok (opt_position o') /\
    opt_method o' = opt_method o /\ opt_recalculate o' = opt_recalculate o /\ opt_tag o' = opt_tag o /\
    (forall v, opt_voltages o = Some v -> any_decrease v = false) /\
    (forall v, opt_internal o = Some v -> any_decrease v = false).
Proof.
  unfold prepare. destruct (prepare_loop _ _ _ _) as [[[h w] lw]|e]; [|discriminate].
  destruct (process_position h (sc_ids c) w lw (opt_position o)) as [p|e] eqn:Ep; simpl; [|discriminate].
  destruct (opt_voltages o) as [v1|] eqn:E1; destruct (opt_internal o) as [v2|] eqn:E2;
  try (destruct (any_decrease v1) eqn:D1; [discriminate|]);
  try (destruct (any_decrease v2) eqn:D2; [discriminate|]);
  intros [= <- <-]; exists h, w, lw; repeat split; auto; intros v Hv; try discriminate;
  injection Hv as <-; assumption.
Qed.

(** * C24 *)

(** For a cell whose elements are distinct objects: after preparation the offset
    of each element is the sum of the widths of the elements before it, so that
    each element starts where the previous one ends; the cell width is the total;
    and each width is the one the element must have.  Missing for the full
    property: cells in which an object occurs twice (refuted below). *)
Theorem C24_offsets_partial :
  forall c o c' o',
    NoDup (sc_ids c) -> prepare c o = Ok (c', o') ->
    sc_ids c' = sc_ids c /\
    sc_width c' = Some (total (map (fun i => w_of (sc_heap c' i)) (sc_ids c))) /\
    (forall k i, nth_error (sc_ids c) k = Some i ->
       o_offset (sc_heap c' i) = Some (total (map (fun j => w_of (sc_heap c' j)) (firstn k (sc_ids c)))) /\
       exists w, o_width (sc_heap c' i) = Some w /\ right_width (sc_heap c i) w) /\
    (forall k i j, nth_error (sc_ids c) k = Some i -> nth_error (sc_ids c) (S k) = Some j ->
       exists x y w, o_offset (sc_heap c' i) = Some x /\ o_width (sc_heap c' i) = Some w /\
         o_offset (sc_heap c' j) = Some y /\ y = x + w).
Proof.
  intros c o c' o' Hnd H. destruct (prepare_ok _ _ _ _ H) as (h & w & lw & Hl & -> & _).
  destruct (prepare_loop_spec _ _ _ _ _ _ _ Hnd Hl) as [H1 H2]. simpl.
  assert (H3 : forall k i, nth_error (sc_ids c) k = Some i ->
       o_offset (h i) = Some (total (map (fun j => w_of (h j)) (firstn k (sc_ids c)))) /\
       exists w, o_width (h i) = Some w /\ right_width (sc_heap c i) w).
  { intros k i Hk. destruct (H2 k i Hk) as [A B]. rewrite Rplus_0_l in A. auto. }
  split; [reflexivity|]. split; [f_equal; lra|]. split; [exact H3|].
  intros k i j Hi Hj. destruct (H3 k i Hi) as [A (wi & B & _)]. destruct (H3 (S k) j Hj) as [C _].
  eexists _, _, wi. split; [exact A|]. split; [exact B|]. split; [exact C|].
  assert (firstn (S k) (sc_ids c) = firstn k (sc_ids c) ++ [i]) as ->.
  { clear - Hi. revert k Hi. induction (sc_ids c) as [|x l IH]; intros [|k] Hi; simpl in *; try discriminate.
    - now injection Hi as ->. - f_equal. now apply IH. }
  rewrite map_app, total_app. simpl.
  assert (w_of (h i) = wi) as -> by (unfold w_of; now rewrite B). lra.
Qed.
Print Assumptions C24_offsets_partial.

Definition layer_obj (w : R) : obj := mkObj OLayer (Some w) None [] None None.
Definition pn_obj (ws : list R) : obj := mkObj OJunction None (Some "PDD") ws None None.
Definition db_obj (w : option R) : obj := mkObj OJunction w (Some "DB") [] None None.
Definition ex_heap : heap := fun i =>
  match i with 0%nat => layer_obj 1 | 1%nat => pn_obj [2; 3] | 2%nat => db_obj None | _ => layer_obj 7 end.
Definition ex_opts : options := mkOptions POther None None 298 "BL" false 1.
Definition ex_cell (ids : list nat) : scell := mkCell ex_heap ids [1; 2]%nat [] None 300.

Example C24_case :
  NoDup (sc_ids (ex_cell [0; 1; 2]%nat)) /\
  exists c' o', prepare (ex_cell [0; 1; 2]%nat) ex_opts = Ok (c', o') /\
    o_offset (sc_heap c' 2%nat) = Some (0 + 1 + sum_widths [2; 3]).
Proof.
  split; [repeat constructor; simpl; intuition discriminate|].
  eexists _, _. split; [reflexivity|]. reflexivity.
Qed.

(** The same layer object twice (what [append(layer, repeats=2)] builds): both
    positions of the cell show the offset of the second one. *)
Theorem C24_offsets_refuted :
  exists c o c' o', prepare c o = Ok (c', o') /\
    exists i x, nth_error (sc_ids c) 0 = Some i /\ o_offset (sc_heap c' i) = Some x /\ x <> 0.
Proof.
  exists (ex_cell [0; 0]%nat), ex_opts. eexists _, _. split; [reflexivity|].
  exists 0%nat. eexists. split; [reflexivity|]. split; [reflexivity|]. lra.
Qed.
Print Assumptions C24_offsets_refuted.

(** * C25 *)

(** A task that is not registered: no solver is called and an exception is
    raised, ValueError whenever the cell itself could be prepared. *)
Theorem C25_unknown_task_rejected :
  forall R c task o,
    r_actions R task = false ->
    out_trace (solver R c task o) = [] /\
    exists e, out_exn (solver R c task o) = Some e /\
      (is_ok (prepare c o) = true -> e = ValueError).
Proof.
  intros R c task o H. unfold solver. destruct (prepare c o) as [[c1 o1]|e]; simpl.
  - rewrite H. simpl. split; [reflexivity|]. eauto.
  - split; [reflexivity|]. exists e. split; [reflexivity|discriminate].
Qed.
Print Assumptions C25_unknown_task_rejected.
Example C25_case1 :
  r_actions (mkRegistries (fun t => mem t builtin) (fun _ => true) (fun _ => true) (fun _ => true) (fun _ => true)) "IV" = false
  /\ is_ok (prepare (ex_cell [0; 1]%nat) ex_opts) = true.
Proof. split; reflexivity. Qed.

(** The kinds of the elements at the given positions of the cell. *)
Definition kinds_at (c : scell) (js : list nat) (ks : list string) : Prop :=
  Forall2 (fun j k => exists i, nth_error (sc_ids c) j = Some i /\ o_kind (sc_heap c i) = Some k) js ks.

Definition same_kinds (c c' : scell) : Prop :=
  sc_ids c' = sc_ids c /\ sc_junctions c' = sc_junctions c /\ sc_tunnels c' = sc_tunnels c /\
  forall i, o_kind (sc_heap c' i) = o_kind (sc_heap c i).

Lemma prepare_same_kinds c o c' o' : prepare c o = Ok (c', o') -> same_kinds c c'.
Proof.
  intros H. destruct (prepare_ok _ _ _ _ H) as (h & w & lw & Hl & -> & _).
  repeat split. intros i. apply (prepare_loop_kind _ _ _ _ _ _ _ Hl i).
Qed.

Lemma mark_loop ids h n i :
  let h' := fold_left (fun h i => upd h i (set_absorbed (h i) n)) ids h in
  o_kind (h' i) = o_kind (h i) /\ (In i ids -> o_absorbed (h' i) = Some n) /\
  (~ In i ids -> h' i = h i).
Proof.
  simpl. revert h. induction ids as [|j ids IH]; intros h; simpl; [tauto|].
  destruct (IH (upd h j (set_absorbed (h j) n))) as (I1 & I2 & I3).
  split; [|split].
  - rewrite I1. destruct (Nat.eq_dec i j) as [->|]; [now rewrite upd_same|now rewrite upd_other].
  - intros [->|Hi]; [|now apply I2]. destruct (in_dec Nat.eq_dec i ids) as [Hi|Hi]; [now apply I2|].
    rewrite I3 by assumption. now rewrite upd_same.
  - intros Hn. rewrite I3 by tauto. apply upd_other. intros ->. tauto.
Qed.

Lemma mark_same_kinds c n : same_kinds c (mark_absorbed c n).
Proof. repeat split. intros i. apply mark_loop. Qed.

Lemma kinds_transfer c c' js ks : same_kinds c c' -> kinds_at c js ks -> kinds_at c' js ks.
Proof.
  intros (S1 & _ & _ & S4) H. unfold kinds_at in *.
  induction H as [|j k js ks (i & H1 & H2) _ IH]; constructor; [|exact IH].
  exists i. now rewrite S1, S4.
Qed.

Lemma over_map (f : nat -> list event * option exn) (mk : string -> nat -> event) js ks :
  Forall2 (fun j k => f j = ([mk k j], None)) js ks ->
  over js f = (map (fun p => mk (snd p) (fst p)) (combine js ks), None).
Proof.
  induction 1 as [|j k js ks H _ IH]; simpl; [reflexivity|]. now rewrite H, IH.
Qed.

Lemma over_err (f : nat -> list event * option exn) js j :
  In j js -> (exists e, snd (f j) = Some e) -> exists e, snd (over js f) = Some e.
Proof.
  induction js as [|x js IH]; simpl; [tauto|]. intros [->|H] Hj.
  - destruct Hj as [e He]. destruct (f j) as [ev [e'|]]; simpl in *; [eauto|discriminate].
  - destruct (f x) as [ev [e'|]]; simpl; [eauto|].
    destruct (IH H Hj) as [e He]. destruct (over js f) as [ev' e']; simpl in *. eauto.
Qed.
Lemma over_events (f : nat -> list event * option exn) (P : event -> Prop) js :
  (forall j ev, In ev (fst (f j)) -> P ev) -> forall ev, In ev (fst (over js f)) -> P ev.
Proof.
  intros H. induction js as [|j js IH]; simpl; [tauto|]. intros ev.
  destruct (f j) as [ev1 [e|]] eqn:E; simpl.
  - intros Hin. apply (H j). now rewrite E.
  - destruct (over js f) as [ev2 e2] eqn:E2; simpl in *. rewrite in_app_iff. intros [Hin|Hin].
    + apply (H j). now rewrite E.
    + now apply IH.
Qed.

(** What the optics step does when it has to run and the method is registered. *)
Definition optics_runs (R : registries) (c : scell) (o : options) : Prop :=
  r_optics R (opt_method o) = true /\
  exists i rest, sc_ids c = i :: rest /\ (o_absorbed (sc_heap c i) = None \/ opt_recalculate o = true).

Lemma optics_runs_spec R c o : optics_runs R c o ->
  solve_optics R c o = mkOutcome (mark_absorbed c (opt_tag o)) [EOptics (opt_method o) (opt_tag o)] None.
Proof.
  intros (H1 & i & rest & H2 & H3). unfold solve_optics. rewrite H2, H1.
  destruct H3 as [-> | ->]; simpl; [reflexivity|]. now rewrite orb_true_r.
Qed.

Lemma optics_runs_prepared R c o c' o' x : prepare c o = Ok (c', o') ->
  optics_runs R c o -> optics_runs R c' (set_T o' x).
Proof.
  intros H (H1 & i & rest & H2 & H3).
  destruct (prepare_ok _ _ _ _ H) as (h & w & lw & Hl & -> & _ & Hm & Hr & _).
  split; [simpl; rewrite Hm; exact H1|]. exists i, rest. split; [exact H2|]. simpl.
  rewrite Hr. destruct (prepare_loop_kind _ _ _ _ _ _ _ Hl i) as (_ & -> & _). exact H3.
Qed.

Lemma iv_one_ok c js ks : kinds_at c js ks -> (forall k, In k ks -> In k iv_kinds) ->
  Forall2 (fun j k => iv_one c j = ([EIV k j], None)) js ks.
Proof.
  induction 1 as [|j k js ks (i & H1 & H2) _ IH]; intros Hk; constructor.
  - unfold iv_one, elem. rewrite H1, H2.
    assert (mem k iv_kinds = true) as ->; [|reflexivity].
    apply existsb_exists. exists k. split; [apply Hk; now left|apply String.eqb_refl].
  - apply IH. intros. apply Hk. now right.
Qed.
Lemma qe_one_ok c js ks : kinds_at c js ks -> (forall k, In k ks -> In k iv_kinds) ->
  Forall2 (fun j k => qe_one c j = ([EQE k j], None)) js ks.
Proof.
  induction 1 as [|j k js ks (i & H1 & H2) _ IH]; intros Hk; constructor.
  - unfold qe_one, elem. rewrite H1, H2.
    assert (mem k iv_kinds = true) as ->; [|reflexivity].
    apply existsb_exists. exists k. split; [apply Hk; now left|apply String.eqb_refl].
  - apply IH. intros. apply Hk. now right.
Qed.
Lemma tunnel_one_ok c js ks : kinds_at c js ks ->
  (forall k, In k ks -> In k ["resistive"; "parametric"; "external"]) ->
  Forall2 (fun j k => tunnel_one c j = ([ETunnelIV k j], None)) js ks.
Proof.
  induction 1 as [|j k js ks (i & H1 & H2) _ IH]; intros Hk; constructor.
  - unfold tunnel_one, elem. rewrite H1, H2.
    assert (mem k ["resistive"; "parametric"; "external"] = true) as ->; [|reflexivity].
    apply existsb_exists. exists k. split; [apply Hk; now left|apply String.eqb_refl].
  - apply IH. intros. apply Hk. now right.
Qed.

(** For a preparable cell with a registered optics method that has to run, and
    valid kinds: "optics" runs exactly that method; "iv" runs the method, then
    the IV solver of each junction in order, then each tunnel junction, then the
    multijunction combination; "qe" runs the method and then each junction; a
    user-registered task runs once. *)
Theorem C25_dispatch :
  forall R c o ks ts task,
    is_ok (prepare c o) = true -> r_actions R task = true -> optics_runs R c o ->
    kinds_at c (sc_junctions c) ks -> kinds_at c (sc_tunnels c) ts ->
    (forall k, In k ks -> In k ["PDD"; "sesame_PDD"; "DA"; "2D"; "DB"]) ->
    (forall k, In k ts -> In k ["resistive"; "parametric"; "external"]) ->
    let opt := EOptics (opt_method o) (opt_tag o) in
    let r := solver R c task o in
    let each (mk : string -> nat -> event) js l :=
      map (fun p : nat * string => mk (snd p) (fst p)) (combine js l) in
    (task = "optics" -> out_exn r = None /\ out_trace r = [opt]) /\
    (task = "iv" -> out_exn r = None /\
       out_trace r = opt :: each EIV (sc_junctions c) ks ++ each ETunnelIV (sc_tunnels c) ts ++ [EMultijunction]) /\
    (task = "qe" -> out_exn r = None /\ out_trace r = opt :: each EQE (sc_junctions c) ks) /\
    (~ In task ["optics"; "iv"; "qe"; "equilibrium"; "short_circuit"] ->
       out_exn r = None /\ out_trace r = [EAction task]).
Proof.
  intros R c o ks ts task Hp Ha Ho Hj Ht Hk Htk opt r each.
  unfold r, solver. destruct (prepare c o) as [[c1 o1]|e] eqn:Ep; [|discriminate].
  rewrite Ha. set (o2 := set_T o1 (sc_T c1)).
  assert (Ho2 : optics_runs R c1 o2) by (eapply optics_runs_prepared; eassumption).
  pose proof (optics_runs_spec _ _ _ Ho2) as Hopt.
  destruct (prepare_ok _ _ _ _ Ep) as (h & w & lw & Hl & Hc1 & _ & Hm & Hr & Htag & _).
  assert (Hev : EOptics (opt_method o2) (opt_tag o2) = opt).
  { unfold opt, o2. simpl. now rewrite Hm, Htag. }
  rewrite Hev in Hopt.
  assert (Hsk : same_kinds c (mark_absorbed c1 (opt_tag o2))).
  { pose proof (prepare_same_kinds _ _ _ _ Ep) as (A1 & A2 & A3 & A4).
    pose proof (mark_same_kinds c1 (opt_tag o2)) as (B1 & B2 & B3 & B4).
    repeat split; try congruence; intros i; now rewrite B4. }
  set (c2 := mark_absorbed c1 (opt_tag o2)) in *.
  assert (Hj2 : sc_junctions c2 = sc_junctions c) by apply Hsk.
  assert (Ht2 : sc_tunnels c2 = sc_tunnels c) by apply Hsk.
  split; [|split; [|split]].
  - intros ->. simpl. rewrite Hopt. split; reflexivity.
  - intros ->. simpl. unfold solve_iv. rewrite Hopt. cbn [out_exn out_cell out_trace].
    rewrite Hj2, Ht2.
    rewrite (over_map _ EIV (sc_junctions c) ks)
      by (apply iv_one_ok; [eapply kinds_transfer; eassumption|assumption]).
    rewrite (over_map _ ETunnelIV (sc_tunnels c) ts)
      by (apply tunnel_one_ok; [eapply kinds_transfer; eassumption|assumption]).
    split; reflexivity.
  - intros ->. simpl. unfold solve_qe. rewrite Hopt. cbn [out_exn out_cell out_trace].
    rewrite Hj2.
    rewrite (over_map _ EQE (sc_junctions c) ks)
      by (apply qe_one_ok; [eapply kinds_transfer; eassumption|assumption]).
    split; reflexivity.
  - intros Hn. simpl in Hn.
    destruct (String.eqb_spec task "optics"); [subst; tauto|].
    destruct (String.eqb_spec task "iv"); [subst; tauto|].
    destruct (String.eqb_spec task "qe"); [subst; tauto|].
    destruct (String.eqb_spec task "equilibrium"); [subst; tauto|].
    destruct (String.eqb_spec task "short_circuit"); [subst; tauto|].
    split; reflexivity.
Qed.
Print Assumptions C25_dispatch.

Definition all_reg : registries :=
  mkRegistries (fun t => mem t builtin) (fun m => mem m ["BL"; "TMM"; "RCWA"; "external"]) (fun _ => true)
    (fun k => mem k ["PDD"; "sesame_PDD"]) (fun k => mem k ["PDD"; "sesame_PDD"]).
Example C25_case2 :
  is_ok (prepare (ex_cell [0; 1; 2]%nat) ex_opts) = true /\
  optics_runs all_reg (ex_cell [0; 1; 2]%nat) ex_opts /\
  kinds_at (ex_cell [0; 1; 2]%nat) [1; 2]%nat ["PDD"; "DB"].
Proof.
  split; [reflexivity|]. split.
  - split; [reflexivity|]. exists 0%nat, [1; 2]%nat. split; [reflexivity|now left].
  - repeat constructor; [exists 1%nat|exists 2%nat]; split; reflexivity.
Qed.

(** A junction of unknown kind makes "iv" fail, and the cell-level combination is
    not run. *)
Theorem C25_unknown_kind_rejected :
  forall R c o j i,
    In j (sc_junctions c) -> nth_error (sc_ids c) j = Some i ->
    (forall k, o_kind (sc_heap c i) = Some k -> ~ In k ["PDD"; "sesame_PDD"; "DA"; "2D"; "DB"]) ->
    (exists e, out_exn (solver R c "iv" o) = Some e) /\
    ~ In EMultijunction (out_trace (solver R c "iv" o)).
Proof.
  intros R c o j i Hj Hi Hk. unfold solver.
  destruct (prepare c o) as [[c1 o1]|e] eqn:Ep; simpl; [|eauto].
  destruct (r_actions R "iv"); simpl; [|eauto].
  unfold solve_iv. set (r := solve_optics R c1 (set_T o1 (sc_T c1))).
  assert (Hr : same_kinds c1 (out_cell r) /\ ~ In EMultijunction (out_trace r)).
  { unfold r, solve_optics. destruct (sc_ids c1); [repeat split; simpl; tauto|].
    destruct (negb _ || _); [|repeat split; simpl; tauto].
    destruct (r_optics R _); [|repeat split; simpl; tauto].
    split; [apply mark_same_kinds|]. simpl. intuition discriminate. }
  destruct Hr as [(K1 & K2 & K3 & K4) Hno].
  destruct (out_exn r) as [e|] eqn:Ee; [rewrite Ee; eauto|].
  destruct (prepare_same_kinds _ _ _ _ Ep) as (A1 & A2 & A3 & A4).
  assert (Hbad : exists e, snd (iv_one (out_cell r) j) = Some e).
  { unfold iv_one, elem. rewrite K1, A1, Hi, K4, A4.
    destruct (o_kind (sc_heap c i)) as [k|] eqn:Eo; [|simpl; eauto].
    destruct (mem k iv_kinds) eqn:Em; [|simpl; eauto]. exfalso.
    unfold mem in Em. rewrite existsb_exists in Em. destruct Em as (k' & H1 & H2).
    apply String.eqb_eq in H2. subst k'. now apply (Hk k). }
  rewrite K2, A2.
  destruct (over_err (iv_one (out_cell r)) (sc_junctions c) j Hj Hbad) as [e He].
  pose proof (over_events (iv_one (out_cell r)) (fun ev => ev <> EMultijunction) (sc_junctions c)) as Hevs.
  destruct (over (sc_junctions c) (iv_one (out_cell r))) as [ev e'] eqn:Eo. simpl in He, Hevs. subst e'.
  simpl. split; [eauto|]. rewrite in_app_iff. intros [H|H]; [tauto|].
  apply (Hevs) in H; [congruence|]. intros j' ev'. unfold iv_one.
  destruct (elem (out_cell r) j') as [ob|]; [|intros []]. destruct (o_kind ob) as [k|]; [|intros []].
  destruct (mem k iv_kinds); [|intros []]. intros [<-|[]]. discriminate.
Qed.
Print Assumptions C25_unknown_kind_rejected.
Example C25_case3 :
  let h := upd ex_heap 1 (mkObj OJunction None (Some "pdd") [1] None None) in
  forall k, o_kind (h 1%nat) = Some k -> ~ In k ["PDD"; "sesame_PDD"; "DA"; "2D"; "DB"].
Proof. intros h k [= <-]. simpl. intuition discriminate. Qed.

(** An unknown optics method is not rejected when the cell has been solved
    before: the task succeeds without running anything. *)
Theorem C25_unknown_method_refuted :
  exists R c o, r_optics R (opt_method o) = false /\ r_actions R "optics" = true /\
    opt_recalculate o = false /\
    out_exn (solver R c "optics" o) = None /\ out_trace (solver R c "optics" o) = [].
Proof.
  exists all_reg.
  exists (mark_absorbed (ex_cell [0; 1]%nat) 1).
  exists (mkOptions POther None None 298 "no such method" false 2).
  repeat split.
Qed.
Print Assumptions C25_unknown_method_refuted.

(** A method that is not registered, when the optics has to be calculated: no solver of any
    of the four tasks is called and ValueError is raised. *)
Theorem C25_unknown_method_rejected_partial :
  forall R c o task i rest,
    In task ["optics"; "iv"; "qe"; "short_circuit"] ->
    is_ok (prepare c o) = true -> r_actions R task = true -> r_optics R (opt_method o) = false ->
    sc_ids c = i :: rest -> (o_absorbed (sc_heap c i) = None \/ opt_recalculate o = true) ->
    out_exn (solver R c task o) = Some ValueError /\ out_trace (solver R c task o) = [].
Proof.
  intros R c o task i rest Ht Hp Ha Hm Hi Hc. unfold solver.
  destruct (prepare c o) as [[c1 o1]|e] eqn:Ep; [|discriminate]. rewrite Ha.
  destruct (prepare_ok _ _ _ _ Ep) as (h & w & lw & Hl & Hc1 & _ & Hm1 & Hr & _).
  assert (Ho : solve_optics R c1 (set_T o1 (sc_T c1)) = mkOutcome c1 [] (Some ValueError)).
  { unfold solve_optics. rewrite Hc1. simpl. rewrite Hi, Hr, Hm1, Hm.
    destruct (prepare_loop_kind _ _ _ _ _ _ _ Hl i) as (_ & -> & _).
    destruct Hc as [-> | ->]; simpl; [reflexivity|]. now rewrite orb_true_r. }
  destruct Ht as [<-|[<-|[<-|[<-|[]]]]]; simpl;
    unfold solve_iv, solve_qe, solve_short_circuit; rewrite Ho; simpl; auto.
Qed.
Print Assumptions C25_unknown_method_rejected_partial.

(** * C26 *)

(** A vector of positions is returned unchanged unless its length is 1, the
    number of elements or the number of individual layers; a number (or a list
    with one number) is the step of an equally spaced mesh covering [0, width).
    Missing for the full property: vectors of one of the two special lengths,
    which are taken for step sizes (refuted below). *)
Theorem C26_positions_partial :
  forall h ids width lw,
    (forall l, length l <> 1%nat -> length l <> length ids -> length l <> length lw ->
       process_position h ids width lw (PList l) = Ok (PList l)) /\
    (forall s, 0 < s -> exists l, process_position h ids width lw (PNumber s) = Ok (PList l) /\
       (forall i x, nth_error l i = Some x -> x = INR i * s /\ x < width) /\
       width <= INR (length l) * s) /\
    (forall s, 0 < s -> exists l,
       ((forall i x, nth_error l i = Some x -> x = INR i * s /\ x < width) /\
        width <= INR (length l) * s) /\
       (length l <> length ids -> length l <> length lw ->
        process_position h ids width lw (PList [s]) = Ok (PList l))).
Proof.
  intros h ids width lw. split; [|split].
  - intros l H1 H2 H3. unfold process_position.
    assert ((match l with [s] => arange 0 width s | _ => Ok l end) = Ok l) as ->.
    { destruct l as [|a [|b l]]; try reflexivity. now destruct H1. }
    simpl. destruct (Nat.eqb_spec (length l) (length ids)); [contradiction|].
    destruct (Nat.eqb_spec (length l) (length lw)); [contradiction|reflexivity].
  - intros s Hs. unfold process_position. destruct (arange 0 width s) as [l|e] eqn:E.
    + exists l. split; [reflexivity|]. destruct (arange_spec _ _ _ _ Hs E) as [H1 H2]. split.
      * intros i x Hx. destruct (H1 i x Hx). lra.
      * lra.
    + unfold arange in E. destruct (Req_EM_T s 0); [lra|discriminate].
  - intros s Hs. unfold process_position. destruct (arange 0 width s) as [l|e] eqn:E.
    + exists l. destruct (arange_spec _ _ _ _ Hs E) as [H1 H2]. split.
      * split; [|lra]. intros i x Hx. destruct (H1 i x Hx). lra.
      * intros L1 L2. cbn [bindR]. destruct (Nat.eqb_spec (length l) (length ids)); [contradiction|].
        destruct (Nat.eqb_spec (length l) (length lw)); [contradiction|reflexivity].
    + unfold arange in E. destruct (Req_EM_T s 0); [lra|discriminate].
Qed.
Print Assumptions C26_positions_partial.
Example C26_case :
  length [0; 1; 2; 3] <> 1%nat /\ length [0; 1; 2; 3] <> length [0; 1]%nat /\ 0 < 1/2.
Proof. repeat split; try discriminate. lra. Qed.

(** What the two special lengths do: one step per element meshes each element from its
    offset, otherwise one step per individual layer meshes each layer from the sum of the
    layers before it. *)
Definition regular_mesh (x w s : R) (m : list R) : Prop :=
  (forall i y, nth_error m i = Some y -> y = x + INR i * s /\ y < x + w) /\ w <= INR (length m) * s.

Lemma arange_ok x w s : 0 < s -> exists m, arange x (x + w) s = Ok m /\ regular_mesh x w s m.
Proof.
  intros Hs. destruct (arange x (x + w) s) as [m|e] eqn:E.
  - exists m. split; [reflexivity|]. destruct (arange_spec _ _ _ _ Hs E) as [H1 H2]. split; [exact H1|lra].
  - unfold arange in E. destruct (Req_EM_T s 0); [lra|discriminate].
Qed.

Theorem C26_element_steps :
  forall h ids width lw steps,
    length steps = length ids -> (2 <= length steps)%nat -> Forall (fun s => 0 < s) steps ->
    (forall i, In i ids -> exists x w, o_offset (h i) = Some x /\ o_width (h i) = Some w) ->
    exists ms, process_position h ids width lw (PList steps) = Ok (PList (concat ms)) /\
      Forall2 (fun si m => exists x w, o_offset (h (snd si)) = Some x /\ o_width (h (snd si)) = Some w /\
                 regular_mesh x w (fst si) m) (combine steps ids) ms.
Proof.
  intros h ids width lw steps Hlen H2 Hs Hx.
  assert (G : exists ms, element_meshes h ids steps = Ok ms /\ length ms = length ids /\
      Forall2 (fun si m => exists x w, o_offset (h (snd si)) = Some x /\ o_width (h (snd si)) = Some w /\
                 regular_mesh x w (fst si) m) (combine steps ids) ms).
  { clear H2. revert ids Hlen Hx. induction Hs as [|s steps Hs _ IH]; intros [|i ids] Hlen Hx; try discriminate.
    - exists []. repeat constructor.
    - injection Hlen as Hlen. destruct (IH ids Hlen) as (ms & E & L & F); [intros j Hj; apply Hx; now right|].
      destruct (Hx i (or_introl eq_refl)) as (x & w & Ex & Ew). destruct (arange_ok x w s Hs) as (m & Em & Hm).
      exists (m :: ms). simpl. rewrite Ex, Ew, Em. simpl. rewrite E. simpl.
      split; [reflexivity|]. split; [now rewrite L|]. constructor; [|exact F]. exists x, w. auto. }
  destruct G as (ms & E & L & F). exists ms. split; [|exact F]. unfold process_position.
  assert ((match steps with [s] => arange 0 width s | _ => Ok steps end) = Ok steps) as ->
    by (destruct steps as [|a [|b l]]; simpl in H2; try lia; reflexivity).
  cbn [bindR]. rewrite Hlen, Nat.eqb_refl, E. cbn [bindR]. unfold hstack.
  destruct ms; [simpl in L; lia|reflexivity].
Qed.
Print Assumptions C26_element_steps.

Theorem C26_layer_steps :
  forall h ids width lw steps,
    length steps = length lw -> length steps <> length ids -> (2 <= length steps)%nat ->
    Forall (fun s => 0 < s) steps ->
    exists ms, process_position h ids width lw (PList steps) = Ok (PList (concat ms)) /\
      length ms = length lw /\
      forall k s w m, nth_error steps k = Some s -> nth_error lw k = Some w -> nth_error ms k = Some m ->
        regular_mesh (total (firstn k lw)) w s m.
Proof.
  intros h ids width lw steps Hlen Hne H2 Hs.
  assert (G : forall st, exists ms, layer_meshes st lw steps = Ok ms /\ length ms = length lw /\
      forall k s w m, nth_error steps k = Some s -> nth_error lw k = Some w -> nth_error ms k = Some m ->
        regular_mesh (st + total (firstn k lw)) w s m).
  { clear H2 Hne. revert lw Hlen. induction Hs as [|s steps Hs _ IH]; intros [|w lw] Hlen st; try discriminate.
    - exists []. split; [reflexivity|]. split; [reflexivity|]. intros [|k]; discriminate.
    - injection Hlen as Hlen. destruct (IH lw Hlen (st + w)) as (ms & E & L & F).
      destruct (arange_ok st w s Hs) as (m & Em & Hm).
      exists (m :: ms). simpl. rewrite Em. simpl. rewrite E. simpl.
      split; [reflexivity|]. split; [now rewrite L|]. intros [|k] s' w' m'; simpl.
      + intros [= <-] [= <-] [= <-]. replace (st + 0) with st by ring. exact Hm.
      + intros A B D. replace (st + (w + total (firstn k lw))) with (st + w + total (firstn k lw)) by ring.
        eapply F; eassumption. }
  destruct (G 0) as (ms & E & L & F). exists ms. split; [|split; [exact L|]].
  - unfold process_position.
    assert ((match steps with [s] => arange 0 width s | _ => Ok steps end) = Ok steps) as ->
      by (destruct steps as [|a [|b l]]; simpl in H2; try lia; reflexivity).
    cbn [bindR]. destruct (Nat.eqb_spec (length steps) (length ids)); [contradiction|].
    rewrite Hlen, Nat.eqb_refl, E. cbn [bindR]. unfold hstack.
    destruct ms; [simpl in L; lia|reflexivity].
  - intros k s w m A B D. replace (total (firstn k lw)) with (0 + total (firstn k lw)) by ring. eauto.
Qed.
Print Assumptions C26_layer_steps.
Example C26_steps_case :
  length [1/2; 1/4] = length [0; 1]%nat /\ Forall (fun s => 0 < s) [1/2; 1/4] /\ length [1/2; 1/4; 1] = length [1; 2; 3].
Proof. repeat split; repeat apply Forall_cons; try lra; constructor. Qed.

(** Two positions for a cell of two layers are taken for step sizes: with the
    first position 0 the call raises ZeroDivisionError, and otherwise the mesh is
    not the given vector. *)
Theorem C26_positions_refuted :
  exists c, (forall o, opt_position o = PList [0; 1/2] -> prepare c o = Err ZeroDivisionError) /\
    exists o c' o', opt_position o = PList [1/2; 3/2] /\ prepare c o = Ok (c', o') /\
      opt_position o' <> PList [1/2; 3/2].
Proof.
  exists (mkCell (fun _ => layer_obj 1) [0; 1]%nat [] [] None 300). split.
  - intros o Ho. unfold prepare. simpl. rewrite Ho. unfold process_position. simpl.
    unfold arange at 1. destruct (Req_EM_T 0 0); [reflexivity|lra].
  - exists (mkOptions (PList [1/2; 3/2]) None None 298 "BL" false 1).
    unfold prepare. simpl.
    destruct (arange 0 (0 + 1) (1/2)) as [l1|e] eqn:E1.
    2:{ unfold arange in E1. destruct (Req_EM_T (1/2) 0); [lra|discriminate]. }
    destruct (arange (0 + 1) (0 + 1 + 1) (3/2)) as [l2|e] eqn:E2.
    2:{ unfold arange in E2. destruct (Req_EM_T (3/2) 0); [lra|discriminate]. }
    simpl. eexists _, _. split; [reflexivity|]. split; [reflexivity|]. simpl.
    intros [= H]. rewrite app_nil_r in H.
    assert (P : 0 < 1/2) by lra. destruct (arange_spec _ _ _ _ P E1) as [A1 A2].
    destruct l1 as [|x l1]; [simpl in A2; lra|].
    destruct (A1 0%nat x eq_refl) as [Hx _]. simpl in Hx. simpl in H. injection H as H _. lra.
Qed.
Print Assumptions C26_positions_refuted.

(** * C72 *)

(** The equilibrium and short-circuit tasks call, for each junction in order, the
    solver registered for its kind, and only warn for kinds without solver.
    Missing for the full property: the IV task does not look at its registry
    (refuted below). *)
Theorem C72_registered_solver_used_partial :
  forall R c o ks,
    is_ok (prepare c o) = true -> r_actions R "equilibrium" = true ->
    kinds_at c (sc_junctions c) ks ->
    out_exn (solver R c "equilibrium" o) = None /\
    out_trace (solver R c "equilibrium" o) =
      map (fun p => if r_equilibrium R (snd p) then EEquilibrium (snd p) (fst p) else EWarn (fst p))
          (combine (sc_junctions c) ks) /\
    (r_actions R "short_circuit" = true -> optics_runs R c o ->
     out_exn (solver R c "short_circuit" o) = None /\
     out_trace (solver R c "short_circuit" o) =
       EOptics (opt_method o) (opt_tag o) ::
       map (fun p => if r_short_circuit R (snd p) then EShortCircuit (snd p) (fst p) else EWarn (fst p))
           (combine (sc_junctions c) ks)).
Proof.
  assert (Hover : forall reg mk c' js ks, kinds_at c' js ks ->
    over js (reg_one reg mk c') =
      (map (fun p => if reg (snd p) then mk (snd p) (fst p) else EWarn (fst p)) (combine js ks), None)).
  { intros reg mk c' js ks. induction 1 as [|j k js ks (i & H1 & H2) _ IH]; simpl; [reflexivity|].
    unfold reg_one at 1, elem. rewrite H1, H2, IH. destruct (reg k); reflexivity. }
  intros R c o ks Hp Ha Hk. unfold solver.
  destruct (prepare c o) as [[c1 o1]|e] eqn:Ep; [|discriminate]. rewrite Ha. simpl.
  pose proof (prepare_same_kinds _ _ _ _ Ep) as Hs.
  assert (Hj : sc_junctions c1 = sc_junctions c) by apply Hs.
  unfold solve_equilibrium. rewrite Hj, (Hover _ _ _ _ ks) by (eapply kinds_transfer; eassumption).
  split; [reflexivity|]. split; [reflexivity|].
  intros Ha2 Ho. rewrite Ha2. set (o2 := set_T o1 (sc_T c1)).
  assert (Ho2 : optics_runs R c1 o2) by (eapply optics_runs_prepared; eassumption).
  pose proof (optics_runs_spec _ _ _ Ho2) as Hopt.
  destruct (prepare_ok _ _ _ _ Ep) as (h & w & lw & _ & _ & _ & Hm & _ & Htag & _).
  assert (Hev : EOptics (opt_method o2) (opt_tag o2) = EOptics (opt_method o) (opt_tag o)).
  { unfold o2. simpl. now rewrite Hm, Htag. }
  unfold solve_short_circuit. rewrite Hopt, Hev. cbn [out_exn out_cell out_trace].
  destruct (mark_same_kinds c1 (opt_tag o2)) as (B1 & B2 & B3 & B4).
  rewrite B2, Hj, (Hover _ _ _ _ ks).
  - split; reflexivity.
  - eapply kinds_transfer; [apply mark_same_kinds|]. eapply kinds_transfer; eassumption.
Qed.
Print Assumptions C72_registered_solver_used_partial.
Example C72_case :
  is_ok (prepare (ex_cell [0; 1; 2]%nat) ex_opts) = true /\ r_actions all_reg "equilibrium" = true /\
  out_trace (solver all_reg (ex_cell [0; 1; 2]%nat) "equilibrium" ex_opts)
    = [EEquilibrium "PDD" 1; EWarn 2].
Proof. repeat split. Qed.

(** A junction kind for which an IV solver is registered makes the IV task fail
    all the same. *)
Theorem C72_iv_registry_refuted :
  exists R c o, r_iv R "mine" = true /\ r_actions R "iv" = true /\
    kinds_at c (sc_junctions c) ["mine"] /\ is_ok (prepare c o) = true /\ optics_runs R c o /\
    out_exn (solver R c "iv" o) = Some ValueError.
Proof.
  exists all_reg.
  exists (mkCell (fun _ => mkObj OJunction None (Some "mine") [1] None None) [0%nat] [0%nat] [] None 300).
  exists ex_opts. split; [reflexivity|]. split; [reflexivity|]. split.
  - repeat constructor. exists 0%nat. split; reflexivity.
  - split; [reflexivity|]. split; [|reflexivity].
    split; [reflexivity|]. exists 0%nat, []. split; [reflexivity|now left].
Qed.
Print Assumptions C72_iv_registry_refuted.

(** * C73 *)

(** An element of the cell whose entry in [layer_widths] agrees with its width:
    not a 2D or DB junction with a width of its own, not a foreign object. *)
Definition regular (o : obj) : Prop :=
  match o_type o with
  | OJunction => kind_is o "2D" = false /\ kind_is o "DB" = false \/ o_width o = None
  | OOther => False
  | _ => True
  end.

Lemma prepare_loop_lw h ids off lw h' off' lw' :
  NoDup ids -> (forall i, In i ids -> regular (h i)) ->
  prepare_loop h ids off lw = Ok (h', off', lw') ->
  total lw' - total lw = off' - off.
Proof.
  revert h off lw. induction ids as [|i ids IH]; intros h off lw Hnd Hreg H; simpl in H.
  - injection H as _ <- <-. lra.
  - inversion Hnd as [|? ? Hi Hnd']; subst.
    destruct (visit (h i)) as [[o l]|e] eqn:Ev; simpl in H; [|discriminate].
    destruct (o_width o) as [w|] eqn:Ew; [|discriminate].
    apply IH in H; [|assumption|].
    + rewrite total_app in H. cut (total l = w); [lra|].
      specialize (Hreg i (or_introl eq_refl)). unfold regular in Hreg. unfold visit in Ev.
      destruct (o_type (h i)).
      * destruct (o_width (h i)) eqn:E; [|discriminate]. injection Ev as <- <-.
        rewrite Ew in E. injection E as ->. simpl. lra.
      * injection Ev as <- <-. simpl in Ew. injection Ew as <-. symmetry. apply sum_widths_total.
      * unfold kind_is in Hreg. destruct (o_kind (h i)) as [k|]; [|discriminate].
        destruct (String.eqb k "2D" || String.eqb k "DB") eqn:Ek.
        -- destruct Hreg as [[A B]|A]; [rewrite A, B in Ek; discriminate|].
           rewrite A in Ev. injection Ev as <- <-. simpl in Ew. injection Ew as <-. simpl. lra.
        -- injection Ev as <- <-. simpl in Ew. injection Ew as <-. symmetry. apply sum_widths_total.
      * destruct Hreg.
    + intros j Hj. rewrite upd_other; [apply Hreg; now right|]. intros ->. contradiction.
Qed.

Lemma layer_meshes_spec start lw steps ms :
  (forall w, In w lw -> 0 <= w) -> (forall s, In s steps -> 0 < s) -> layer_meshes start lw steps = Ok ms ->
  forall x, In x (concat ms) -> start <= x < start + total lw.
Proof.
  revert start steps ms. induction lw as [|w lw IH]; intros start steps ms Hw Hs H x Hx.
  - destruct steps; simpl in H; injection H as <-; destruct Hx.
  - destruct steps as [|s steps]; [discriminate|]. simpl in H.
    destruct (arange start (start + w) s) as [m|] eqn:Em; [|discriminate]. simpl in H.
    destruct (layer_meshes (start + w) lw steps) as [ms'|] eqn:Ems; [|discriminate].
    simpl in H. injection H as <-. simpl in Hx. apply in_app_iff in Hx.
    assert (0 <= total lw).
    { assert (forall w, In w lw -> 0 <= w) as Hlw by (intros; apply Hw; now right). clear - Hlw.
      induction lw as [|y lw IH]; simpl; [lra|].
      assert (0 <= y) by (apply Hlw; now left). assert (0 <= total lw) by (apply IH; intros; apply Hlw; now right). lra. }
    assert (0 <= w) by (apply Hw; now left). simpl.
    destruct Hx as [Hx|Hx].
    + assert (0 < s) as Hs0 by (apply Hs; now left).
      destruct (arange_spec _ _ _ _ Hs0 Em) as [A1 A2].
      apply In_nth_error in Hx as [k Hk]. destruct (A1 k x Hk) as [B1 B2].
      assert (0 <= INR k * s) by (apply Rmult_le_pos; [apply pos_INR|lra]). lra.
    + apply (IH (start + w) steps ms') in Hx; try assumption; [lra| |];
      intros; [apply Hw|apply Hs]; now right.
Qed.

Lemma prepare_loop_lw_ge h ids off lw h' off' lw' :
  (forall i, In i ids -> (match o_width (h i) with Some w => 0 <= w | None => True end) /\
     forall w, In w (o_layers (h i)) -> 0 <= w) ->
  (forall w, In w lw -> 0 <= w) -> NoDup ids ->
  prepare_loop h ids off lw = Ok (h', off', lw') -> forall w, In w lw' -> 0 <= w.
Proof.
  revert h off lw. induction ids as [|i ids IH]; intros h off lw Hp Hlw Hnd H; simpl in H.
  - injection H as _ _ <-. assumption.
  - inversion Hnd as [|? ? Hi Hnd']; subst.
    destruct (visit (h i)) as [[o l]|e] eqn:Ev; simpl in H; [|discriminate].
    destruct (o_width o) as [w|] eqn:Ew; [|discriminate].
    revert H. apply IH; [| |assumption].
    + intros j Hj. rewrite upd_other; [apply Hp; now right|]. intros ->. contradiction.
    + intros x Hx. apply in_app_iff in Hx as [Hx|Hx]; [now apply Hlw|].
      destruct (Hp i (or_introl eq_refl)) as [P1 P2]. unfold visit in Ev.
      destruct (o_type (h i)).
      * destruct (o_width (h i)); [|discriminate]. injection Ev as <- <-. destruct Hx as [<-|[]]. assumption.
      * injection Ev as <- <-. now apply P2.
      * destruct (o_kind (h i)); [|discriminate]. destruct (_ || _).
        -- injection Ev as <- <-. destruct Hx as [<-|[]]. lra.
        -- injection Ev as <- <-. now apply P2.
      * injection Ev as <- <-. destruct Hx.
Qed.

(** With position None: if no 2D or DB junction has a width of its own (and the
    elements are distinct, with non-negative widths), every mesh point is inside
    the cell.  Missing for the full property: junctions with their own width
    (refuted below). *)
Theorem C73_default_mesh_partial :
  forall c o c' o' l W,
    NoDup (sc_ids c) ->
    (forall i, In i (sc_ids c) -> regular (sc_heap c i)) ->
    (forall i, In i (sc_ids c) ->
       (match o_width (sc_heap c i) with Some w => 0 <= w | None => True end) /\
       forall w, In w (o_layers (sc_heap c i)) -> 0 <= w) ->
    opt_position o = PNone -> prepare c o = Ok (c', o') ->
    opt_position o' = PList l -> sc_width c' = Some W ->
    forall x, In x l -> 0 <= x < W.
Proof.
  intros c o c' o' l W Hnd Hreg Hpos Hn Hp Hl HW x Hx.
  destruct (prepare_ok _ _ _ _ Hp) as (h & w & lw & Hloop & -> & Hpp & _).
  simpl in HW. injection HW as <-. rewrite Hn, Hl in Hpp. unfold process_position in Hpp.
  destruct (layer_meshes 0 lw _) as [ms|] eqn:Em; [|discriminate]. simpl in Hpp.
  unfold hstack in Hpp. destruct ms as [|m ms0] eqn:Ems; [discriminate|]. rewrite <- Ems in *.
  simpl in Hpp. injection Hpp as <-.
  assert (Hlw : forall w, In w lw -> 0 <= w).
  { eapply prepare_loop_lw_ge; [exact Hpos| |exact Hnd|exact Hloop]. intros w' []. }
  pose proof (prepare_loop_lw _ _ _ _ _ _ _ Hnd Hreg Hloop) as Htot. simpl in Htot.
  pose proof (fun Hs => layer_meshes_spec 0 lw _ ms Hlw Hs Em x Hx) as Hfin.
  cut (0 <= x < 0 + total lw); [lra|]. apply Hfin. clear Hfin.
  intros s Hs. apply in_map_iff in Hs as (w' & <- & _).
  apply Rlt_le_trans with (1 / 10000000000); [lra|apply Rmax_l].
Qed.
Print Assumptions C73_default_mesh_partial.
Example C73_case :
  let c := ex_cell [0; 1; 2]%nat in
  NoDup (sc_ids c) /\ (forall i, In i (sc_ids c) -> regular (sc_heap c i)) /\
  is_ok (prepare c (set_position ex_opts PNone)) = true.
Proof.
  split; [repeat constructor; simpl; intuition discriminate|]. split.
  - simpl. intros i [<-|[<-|[<-|[]]]]; simpl; unfold regular; simpl; tauto.
  - unfold prepare. simpl.
    assert (H : forall a b w, exists l, arange a b (Rmax (1 / 10000000000) w) = Ok l).
    { intros a b w. unfold arange. destruct (Req_EM_T _ 0) as [E|_]; [|eauto].
      pose proof (Rmax_l (1 / 10000000000) w). lra. }
    repeat match goal with |- context [arange ?a ?b (Rmax ?u ?v)] =>
      let l := fresh in let E := fresh in destruct (H a b v) as [l E]; rewrite E; simpl end.
    reflexivity.
Qed.

(** A DB junction 2 m wide (its own width) above a layer of 1 m: the cell is 3 m
    wide, but the default mesh stops just above 1 m, since it takes the junction
    to be 1 micron wide. *)
Theorem C73_default_mesh_refuted :
  exists c o c' o' l W,
    NoDup (sc_ids c) /\ opt_position o = PNone /\ prepare c o = Ok (c', o') /\
    opt_position o' = PList l /\ sc_width c' = Some W /\ W = 3 /\
    (forall x, In x l -> x < 1 + 1 / 1000000).
Proof.
  exists (mkCell (fun i => match i with 0%nat => db_obj (Some 2) | _ => layer_obj 1 end) [0; 1]%nat [0%nat] [] None 300).
  exists (set_position ex_opts PNone). unfold prepare. simpl.
  set (s1 := Rmax (1 / 10000000000) (1 / 1000000 / 5000)). set (s2 := Rmax (1 / 10000000000) (1 / 5000)).
  assert (H1 : 0 < s1). { unfold s1. pose proof (Rmax_l (1 / 10000000000) (1 / 1000000 / 5000)). lra. }
  assert (H2 : 0 < s2). { unfold s2. pose proof (Rmax_l (1 / 10000000000) (1 / 5000)). lra. }
  destruct (arange 0 (0 + 1 / 1000000) s1) as [l1|e] eqn:E1.
  2:{ unfold arange in E1. destruct (Req_EM_T s1 0); [lra|discriminate]. }
  destruct (arange (0 + 1 / 1000000) (0 + 1 / 1000000 + 1) s2) as [l2|e] eqn:E2.
  2:{ unfold arange in E2. destruct (Req_EM_T s2 0); [lra|discriminate]. }
  simpl. eexists _, _, _, _.
  split; [repeat constructor; simpl; intuition discriminate|].
  split; [reflexivity|]. split; [reflexivity|]. split; [reflexivity|]. split; [reflexivity|].
  split; [lra|]. intros x Hx. rewrite app_nil_r in Hx.
  destruct (arange_spec _ _ _ _ H1 E1) as [A1 _]. destruct (arange_spec _ _ _ _ H2 E2) as [A2 _].
  apply in_app_iff in Hx as [Hx|Hx]; apply In_nth_error in Hx as [k Hk];
  [destruct (A1 k x Hk)|destruct (A2 k x Hk)]; lra.
Qed.
Print Assumptions C73_default_mesh_refuted.

(** * C74 *)

(** After a successful optics task with recalculation requested, or on a cell not
    solved before, every element carries results obtained with the options of
    this very call.  Missing for the full property: calls that reuse older
    results (refuted below). *)
Theorem C74_optics_current_partial :
  forall R c o i,
    optics_runs R c o -> r_actions R "optics" = true -> is_ok (prepare c o) = true ->
    In i (sc_ids c) ->
    out_exn (solver R c "optics" o) = None /\
    o_absorbed (sc_heap (out_cell (solver R c "optics" o)) i) = Some (opt_tag o).
Proof.
  intros R c o i Ho Ha Hp Hi. unfold solver.
  destruct (prepare c o) as [[c1 o1]|e] eqn:Ep; [|discriminate]. rewrite Ha. simpl.
  rewrite (optics_runs_spec R c1) by (eapply optics_runs_prepared; eassumption).
  split; [reflexivity|]. simpl.
  destruct (prepare_ok _ _ _ _ Ep) as (h & w & lw & Hl & -> & _ & _ & _ & -> & _).
  now apply mark_loop.
Qed.
Print Assumptions C74_optics_current_partial.
Example C74_case : optics_runs all_reg (ex_cell [0; 1; 2]%nat) ex_opts /\ In 1%nat (sc_ids (ex_cell [0; 1; 2]%nat)).
Proof. split; [apply C25_case2|simpl; tauto]. Qed.

(** Solving again with other options (another wavelength range, another light
    source) keeps the results of the first call, and the second call succeeds. *)
Theorem C74_optics_current_refuted :
  exists R c o1 o2,
    let r1 := solver R c "optics" o1 in
    let r2 := solver R (out_cell r1) "optics" o2 in
    out_exn r1 = None /\ out_exn r2 = None /\ opt_tag o1 <> opt_tag o2 /\
    r_optics R (opt_method o2) = true /\
    o_absorbed (sc_heap (out_cell r2) 0%nat) = Some (opt_tag o1).
Proof.
  exists all_reg, (ex_cell [0; 1]%nat), ex_opts, (mkOptions POther None None 298 "TMM" false 2).
  repeat split. discriminate.
Qed.
Print Assumptions C74_optics_current_refuted.

(** The three other tasks that need the optics leave its results, for the options of the
    call, on every element of the cell, whatever happens in the junction solvers after. *)
Theorem C74_other_tasks_partial :
  forall R c o i task,
    In task ["iv"; "qe"; "short_circuit"] ->
    optics_runs R c o -> r_actions R task = true -> is_ok (prepare c o) = true ->
    In i (sc_ids c) ->
    o_absorbed (sc_heap (out_cell (solver R c task o)) i) = Some (opt_tag o).
Proof.
  intros R c o i task Ht Ho Ha Hp Hi. unfold solver.
  destruct (prepare c o) as [[c1 o1]|e] eqn:Ep; [|discriminate]. rewrite Ha.
  set (o2 := set_T o1 (sc_T c1)).
  assert (Hop : solve_optics R c1 o2 = mkOutcome (mark_absorbed c1 (opt_tag o2)) [EOptics (opt_method o2) (opt_tag o2)] None)
    by (apply optics_runs_spec; eapply optics_runs_prepared; eassumption).
  assert (Hm : o_absorbed (sc_heap (mark_absorbed c1 (opt_tag o2)) i) = Some (opt_tag o)).
  { destruct (prepare_ok _ _ _ _ Ep) as (h & w & lw & Hl & -> & _ & _ & _ & Et & _).
    unfold o2. simpl. rewrite Et. now apply mark_loop. }
  destruct Ht as [<-|[<-|[<-|[]]]]; simpl; unfold solve_iv, solve_qe, solve_short_circuit; rewrite Hop; cbn [out_exn out_cell].
  - destruct (over _ _) as [ev [e|]]; [exact Hm|]. destruct (over _ _) as [ev' [e'|]]; exact Hm.
  - destruct (over _ _) as [ev e]. exact Hm.
  - destruct (over _ _) as [ev e]. exact Hm.
Qed.
Print Assumptions C74_other_tasks_partial.

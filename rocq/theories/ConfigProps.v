(** Properties C01-C05 and C71 of the configuration object. *)
From stdpp Require Import gmap strings list.
From Verif Require Import Common ConfigModel.

(** * Specification vocabulary *)

(** What a user sees for option [o] of section [s] on the live object. *)
Definition shows (k : cfg) (s o : string) : option string := cget (user k) s o.

(** Every section that holds a shipped default exists in the user data. *)
Definition has_default_sections (k : cfg) : Prop :=
  forall s o v, cget (dflt k) s o = Some v -> is_Some (user k !! s).

(** The history contains no (confirmed or unconfirmed) [reset_defaults]. *)
Definition no_reset (h : list op) : Prop :=
  Forall (fun x => match x with OReset _ _ => False | _ => True end) h.

(** * Lemmas: text round trip *)

Lemma parse_app ls1 ls2 cur acc c :
  parse (ls1 ++ ls2) cur acc = Some c ->
  exists c1, parse ls1 cur acc = Some c1 /\
    (forall s o v, cget c1 s o = Some v -> cget c s o = Some v).
Proof.
  assert (mono : forall ls cur acc c, parse ls cur acc = Some c ->
            forall s o v, cget acc s o = Some v -> cget c s o = Some v).
  { induction ls as [|[s|o v] ls IH]; intros cur' acc' c' H; simpl in H.
    - by simplify_eq.
    - destruct (acc' !! s) eqn:E; [done|].
      intros s' o' v' H'. apply (IH _ _ _ H). unfold cget in *.
      destruct (decide (s' = s)) as [->|].
      + by rewrite E in H'.
      + by rewrite lookup_insert_ne.
    - destruct cur' as [s|]; [|done]. destruct (acc' !! s) as [os|] eqn:E; [|done].
      destruct (os !! o) eqn:E2; [done|].
      intros s' o' v' H'. apply (IH _ _ _ H). unfold cget in *.
      destruct (decide (s' = s)) as [->|].
      + rewrite lookup_insert. rewrite E in H'.
        destruct (decide (o' = o)) as [->|]; [congruence|].
        by rewrite lookup_insert_ne.
      + by rewrite lookup_insert_ne. }
  revert cur acc. induction ls1 as [|[s|o v] ls IH]; intros cur acc H; simpl in *.
  - exists acc. split; [done|]. by eapply mono.
  - destruct (acc !! s); [done|]. by apply IH.
  - destruct cur as [s|]; [|done]. destruct (acc !! s); [|done].
    destruct (_ !! o); [done|]. by apply IH.
Qed.

Lemma parse_opts l rest s acc os :
  acc !! s = Some os ->
  NoDup l.*1 ->
  (forall o, o ∈ l.*1 -> os !! o = None) ->
  parse (map (fun q : string * string => LOpt q.1 q.2) l ++ rest) (Some s) acc
  = parse rest (Some s) (<[s := list_to_map l ∪ os]> acc).
Proof.
  revert acc os. induction l as [|[o v] l IH]; intros acc os Hs Hnd Hdis; simpl.
  - by rewrite (left_id_L ∅ (∪)), insert_id.
  - simpl in *. inversion Hnd as [|? ? Hnotin Hnd']; subst.
    rewrite Hs. rewrite (Hdis o) by set_solver.
    rewrite IH with (os := <[o := v]> os).
    + f_equal. rewrite insert_insert. f_equal.
      rewrite <- insert_union_l, <- insert_union_r; [done|].
      by apply not_elem_of_list_to_map_1.
    + by rewrite lookup_insert.
    + done.
    + intros o' Ho'. rewrite lookup_insert_ne by set_solver. apply Hdis. set_solver.
Qed.

Lemma parse_render_list l cur acc :
  NoDup l.*1 ->
  (forall s, s ∈ l.*1 -> acc !! s = None) ->
  parse (flat_map render_section l) cur acc = Some (list_to_map l ∪ acc).
Proof.
  revert cur acc. induction l as [|[s os] l IH]; intros cur acc Hnd Hdis.
  - simpl. f_equal. symmetry. apply (left_id_L ∅ (∪)).
  - simpl in *. inversion Hnd as [|? ? Hnotin Hnd']; subst.
    rewrite (Hdis s) by set_solver.
    rewrite parse_opts with (os := ∅).
    + rewrite (right_id_L ∅ (∪)), list_to_map_to_list, insert_insert.
      rewrite IH; [|done|].
      * f_equal. rewrite <- insert_union_l, <- insert_union_r; [done|].
        by apply not_elem_of_list_to_map_1.
      * intros s' Hs'. rewrite lookup_insert_ne by set_solver. apply Hdis. set_solver.
    + by rewrite lookup_insert.
    + apply NoDup_fst_map_to_list.
    + intros. apply lookup_empty.
Qed.

Lemma parse_render c : parse_file (render c) = Some c.
Proof.
  unfold parse_file, render. rewrite parse_render_list.
  - f_equal. rewrite list_to_map_to_list. apply (right_id_L ∅ (∪)).
  - apply NoDup_fst_map_to_list.
  - intros. apply lookup_empty.
Qed.

(** * Lemmas: restoring defaults *)

Lemma elem_triples c s o v : (s, o, v) ∈ triples c <-> cget c s o = Some v.
Proof.
  unfold triples, cget. rewrite elem_of_list_In, in_flat_map. split.
  - intros [[s' os] [H1 H2]]. apply in_map_iff in H2 as [[o' v'] [H2 H3]].
    simpl in *. simplify_eq.
    apply elem_of_list_In, elem_of_map_to_list in H1.
    apply elem_of_list_In, elem_of_map_to_list in H3.
    by rewrite H1.
  - intros H. destruct (c !! s) as [os|] eqn:E; [|done].
    exists (s, os). split.
    + by apply elem_of_list_In, elem_of_map_to_list.
    + apply in_map_iff. exists (o, v). split; [done|].
      by apply elem_of_list_In, elem_of_map_to_list.
Qed.

Lemma elem_of_list_In_dec (s o : string) (l : list (string * string * string)) :
  (exists v, (s, o, v) ∈ l) \/ (forall v, (s, o, v) ∉ l).
Proof.
  induction l as [|[[s' o'] v'] l IH].
  - right. intros v H. by apply elem_of_nil in H.
  - destruct IH as [[v H]|H]; [left; exists v; by right|].
    destruct (decide ((s, o) = (s', o'))) as [E|E].
    + left. exists v'. simplify_eq. left.
    + right. intros v Hv. apply elem_of_cons in Hv as [Hv|Hv]; [|by apply (H v)].
      simplify_eq.
Qed.

Lemma restore_loop_ok l u :
  (forall s o v, (s, o, v) ∈ l -> is_Some (u !! s)) ->
  (forall s o v v', (s, o, v) ∈ l -> (s, o, v') ∈ l -> v = v') ->
  exists u', restore_loop l u = (u', None) /\
    (forall s, is_Some (u' !! s) <-> is_Some (u !! s)) /\
    (forall s o v, (s, o, v) ∈ l -> cget u' s o = Some v) /\
    (forall s o, (forall v, (s, o, v) ∉ l) -> cget u' s o = cget u s o).
Proof.
  revert u. induction l as [|[[s o] v] l IH]; intros u Hs Hf.
  - exists u. split; [done|]. split; [done|]. split; [|done]. intros ??? H. by apply elem_of_nil in H.
  - simpl. destruct (Hs s o v ltac:(left)) as [os Eos]. rewrite Eos.
    destruct (IH (<[s:=<[o:=v]> os]> u)) as (u' & H1 & H2 & H3 & H4).
    { intros s' o' v' H. destruct (decide (s' = s)) as [->|].
      - rewrite lookup_insert. eauto.
      - rewrite lookup_insert_ne by done. eapply Hs. right. exact H. }
    { intros. eapply Hf; right; eassumption. }
    exists u'. split; [done|]. split; [|split].
    + intros s'. rewrite H2. destruct (decide (s' = s)) as [->|].
      * rewrite lookup_insert, Eos. split; intros; eauto.
      * by rewrite lookup_insert_ne.
    + intros s' o' v' H. apply elem_of_cons in H as [H|H]; [|by apply H3].
      simplify_eq.
      destruct (elem_of_list_In_dec s o l) as [[v' H']|Hn].
      * rewrite (H3 _ _ _ H'). f_equal. eapply Hf; [right; exact H'|left].
      * rewrite H4 by exact Hn.
        unfold cget. by rewrite !lookup_insert.
    + intros s' o' H. rewrite H4.
      * unfold cget. destruct (decide (s' = s)) as [->|].
        -- rewrite lookup_insert, Eos. destruct (decide (o' = o)) as [->|].
           ++ exfalso. apply (H v). left.
           ++ by rewrite lookup_insert_ne.
        -- by rewrite lookup_insert_ne.
      * intros v' Hv'. apply (H v'). by right.
Qed.

(** * Lemmas: invariants *)

Definition synced (k : cfg) : Prop :=
  exists ls, disk k = Some ls /\ parse_file ls = Some (user k).

Lemma synced_save k : synced (save k).
Proof. exists (render (user k)). split; [done|]. simpl. apply parse_render. Qed.

Lemma step_dflt acc k x : dflt (fst (step acc k x)) = dflt k.
Proof.
  destruct x; simpl; unfold set_item, remove_source, restore_default_source,
    restore_defaults, reset_defaults, register_observer, set_item;
  repeat (case_match; simplify_eq/=; try done).
Qed.

Lemma run_dflt acc k h : dflt (run acc k h) = dflt k.
Proof.
  revert k. induction h as [|x h IH]; intros k; [done|].
  unfold run in *. simpl. by rewrite IH, step_dflt.
Qed.

Lemma step_sections acc k x s :
  is_Some (user k !! s) -> is_Some (user (fst (step acc k x)) !! s).
Proof.
  intros H.
  assert (Hset : forall s' o v, is_Some (user (fst (set_item acc k s' o v)) !! s)).
  { intros s' o v. unfold set_item. destruct (user k !! s') as [os|] eqn:E; [|done].
    destruct (acc v); [|done]. simpl.
    destruct (decide (s = s')) as [->|]; [rewrite lookup_insert; eauto|by rewrite lookup_insert_ne]. }
  destruct x as [s' o v|s' o|s' o| |c r|s' cb]; simpl.
  - apply Hset.
  - unfold remove_source. destruct (dflt k !! s') as [ds|]; [|done].
    destruct (ds !! o); [apply Hset|]. destruct (user k !! s') as [os|] eqn:E; [|done].
    simpl. destruct (decide (s = s')) as [->|]; [rewrite lookup_insert; eauto|by rewrite lookup_insert_ne].
  - unfold restore_default_source. destruct (dflt k !! s') as [ds|]; [|done].
    destruct (ds !! o); [apply Hset|done].
  - unfold restore_defaults.
    assert (Hloop : forall l u, is_Some (u !! s) -> is_Some ((restore_loop l u).1 !! s)).
    { induction l as [|[[s1 o1] v1] l IH]; intros u Hu; simpl; [done|].
      destruct (u !! s1) as [os|] eqn:E; [|done]. apply IH.
      destruct (decide (s = s1)) as [->|]; [rewrite lookup_insert; eauto|by rewrite lookup_insert_ne]. }
    specialize (Hloop (triples (dflt k)) (user k) H).
    destruct (restore_loop _ _) as [u [e|]]; done.
  - unfold reset_defaults. destruct (c || _); [|done]. simpl.
    unfold merge_conf. rewrite lookup_union_with.
    destruct H as [os ->]. destruct (dflt k !! s); simpl; eauto.
  - unfold register_observer. destruct (user k !! s'); done.
Qed.

Lemma run_sections acc k h :
  has_default_sections k -> has_default_sections (run acc k h).
Proof.
  revert k. induction h as [|x h IH]; intros k H; [done|].
  unfold run in *. simpl. apply IH. intros s o v Hd. rewrite step_dflt in Hd.
  apply step_sections. eauto.
Qed.

Lemma triples_fun c s o v v' : (s, o, v) ∈ triples c -> (s, o, v') ∈ triples c -> v = v'.
Proof. rewrite !elem_triples. congruence. Qed.

Lemma restore_defaults_ok k :
  has_default_sections k ->
  exists k', restore_defaults k = (k', None) /\
    dflt k' = dflt k /\ observers k' = observers k /\ log k' = log k /\
    disk k' = Some (render (user k')) /\
    (forall s, is_Some (user k' !! s) <-> is_Some (user k !! s)) /\
    (forall s o v, cget (dflt k) s o = Some v -> shows k' s o = Some v) /\
    (forall s o, cget (dflt k) s o = None -> shows k' s o = shows k s o).
Proof.
  intros H. unfold restore_defaults.
  destruct (restore_loop_ok (triples (dflt k)) (user k)) as (u' & -> & H2 & H3 & H4).
  { intros s o v Hin. apply elem_triples in Hin. eauto. }
  { apply triples_fun. }
  eexists. split; [reflexivity|]. simpl. repeat (split; [done|]). split.
  - intros s o v Hd. apply H3. by apply elem_triples.
  - intros s o Hd. unfold shows; simpl. apply H4. intros v Hin.
    apply elem_triples in Hin. congruence.
Qed.

Lemma step_synced acc k x :
  has_default_sections k -> synced k ->
  (match x with OReset _ _ => False | _ => True end) ->
  synced (fst (step acc k x)).
Proof.
  intros Hs Hk Hx.
  assert (Hset : forall s' o v, synced (fst (set_item acc k s' o v))).
  { intros s' o v. unfold set_item. destruct (user k !! s'); [|done].
    destruct (acc v); [|done]. exact (synced_save _). }
  destruct x as [s' o v|s' o|s' o| |c r|s' cb]; simpl.
  - apply Hset.
  - unfold remove_source. destruct (dflt k !! s') as [ds|]; [|done].
    destruct (ds !! o); [apply Hset|]. destruct (user k !! s'); [|done]. apply synced_save.
  - unfold restore_default_source. destruct (dflt k !! s') as [ds|]; [|done].
    destruct (ds !! o); [apply Hset|done].
  - destruct (restore_defaults_ok k Hs) as (k' & -> & H). simpl.
    exists (render (user k')). split; [apply H|apply parse_render].
  - done.
  - unfold register_observer. destruct (user k !! s'); done.
Qed.

Lemma run_synced acc k h :
  has_default_sections k -> synced k -> no_reset h -> synced (run acc k h).
Proof.
  revert k. induction h as [|x h IH]; intros k Hs Hk Hr; [done|].
  inversion Hr; subst. unfold run in *. simpl. apply IH.
  - exact (run_sections acc k [x] Hs).
  - by apply step_synced.
  - done.
Qed.

Lemma load_synced d dk k : load d dk = Ok k -> synced k.
Proof.
  unfold load. destruct dk as [ls|]; simpl.
  - destruct (parse_file ls) as [u|] eqn:Ep; [|done]. simpl.
    assert (Hk : synced (mkCfg d u (Some ls) ∅ [])) by (exists ls; done).
    destruct (u !! "Configuration") as [os|]; [|done].
    assert (Hr : forall k', (match restore_defaults (mkCfg d u (Some ls) ∅ []) with
                  (k', None) => Ok k' | (_, Some e) => Err e end) = Ok k' -> synced k').
    { intros k'. unfold restore_defaults. destruct (restore_loop _ _) as [u' [e|]]; [done|].
      intros; simplify_eq. apply synced_save. }
    destruct (os !! "version") as [ver|]; [|by apply Hr].
    destruct (cget d _ _) as [dver|]; [|done].
    destruct (String.eqb ver dver); [|by apply Hr]. intros; by simplify_eq.
  - destruct (merge_conf d ∅ !! "Configuration") as [os|]; [|done].
    set (k0 := mkCfg d (merge_conf d ∅) (Some (render d)) ∅ []).
    assert (Hk : synced k0).
    { exists (render d). split; [done|]. rewrite parse_render. simpl. f_equal.
      apply map_eq. intros s. unfold merge_conf. rewrite lookup_union_with, lookup_empty.
      by destruct (d !! s). }
    assert (Hr : forall k', (match restore_defaults k0 with
                  (k', None) => Ok k' | (_, Some e) => Err e end) = Ok k' -> synced k').
    { intros k'. unfold restore_defaults. destruct (restore_loop _ _) as [u' [e|]]; [done|].
      intros; simplify_eq. apply synced_save. }
    destruct (os !! "version") as [ver|]; [|by apply Hr].
    destruct (cget d _ _) as [dver|]; [|done].
    destruct (String.eqb ver dver); [|by apply Hr]. intros; by simplify_eq.
Qed.

Lemma load_dflt d dk k : load d dk = Ok k -> dflt k = d.
Proof.
  unfold load, restore_defaults. intros H.
  repeat (first [case_match | progress simplify_eq/=]; try done).
Qed.

Lemma load_of_synced k ls ver :
  disk k = Some ls -> parse_file ls = Some (user k) ->
  cget (user k) "Configuration" "version" = Some ver ->
  cget (dflt k) "Configuration" "version" = Some ver ->
  load (dflt k) (disk k) = Ok (mkCfg (dflt k) (user k) (disk k) ∅ []).
Proof.
  intros Hd Hp Hu Hv. unfold load. rewrite Hd, Hp. simpl.
  unfold cget in Hu. destruct (user k !! "Configuration") as [os|]; [|done].
  by rewrite Hu, Hv, String.eqb_refl.
Qed.

Definition dummy_cfg : cfg := mkCfg ∅ ∅ None ∅ [].
Definition the (r : res cfg) : cfg := match r with Ok k => k | Err _ => dummy_cfg end.
Lemma the_ok r : is_ok r = true -> r = Ok (the r).
Proof. by destruct r. Qed.

(** * C01 *)

(** A configuration opened from disk, after any history of set / remove_source /
    restore_default_source / restore_defaults / register_observer calls
    (failing ones included), shows after re-opening exactly what the live
    object shows.  Hypotheses: no reset_defaults in the history, the user data
    has the shipped sections, and the recorded version is the shipped one (a
    different version makes opening restore the defaults, see C05).  Missing for
    the full property: user files lacking a shipped section (refuted below). *)
Theorem C01_writes_durable_partial :
  forall accepts d dk k h ver,
    load d dk = Ok k ->
    has_default_sections k ->
    no_reset h ->
    let k' := run accepts k h in
    shows k' "Configuration" "version" = Some ver ->
    cget d "Configuration" "version" = Some ver ->
    exists k'', load d (disk k') = Ok k'' /\
      forall s o, shows k'' s o = shows k' s o.
Proof.
  intros accepts d dk k h ver Hl Hs Hr k' Hver Hd.
  assert (Hsy : synced k') by (apply run_synced; eauto using load_synced).
  destruct Hsy as (ls & H1 & H2).
  assert (Hdf : dflt k' = d) by (unfold k'; rewrite run_dflt; eauto using load_dflt).
  exists (mkCfg d (user k') (disk k') ∅ []). split; [|done].
  rewrite <- Hdf. eapply load_of_synced; eauto. by rewrite Hdf.
Qed.
Print Assumptions C01_writes_durable_partial.

Definition ex_dflt : conf :=
  {[ "Configuration" := {[ "version" := "5.9"; "welcome_message" := "True" ]};
     "Units" := {[ "base" := "u.txt" ]} ]}.
Definition all_ok (v : string) : bool := true.

Example C01_case :
  exists k, load ex_dflt None = Ok k /\ has_default_sections k /\
    no_reset [OSet "Units" "mine" "m.txt"; ORemove "Units" "base"; OSet "Nope" "a" "b";
              ORestoreSource "Units" "base"; ORemove "Units" "mine"; ORestoreAll] /\
    shows (run all_ok k [OSet "Units" "mine" "m.txt"; ORemove "Units" "base"])
          "Configuration" "version" = Some "5.9" /\
    shows (run all_ok k [OSet "Units" "mine" "m.txt"; ORemove "Units" "base"])
          "Units" "base" = Some "".
Proof.
  exists (the (load ex_dflt None)). split; [apply the_ok; vm_compute; reflexivity|]. split; [|split].
  - intros s o v. unfold cget. intros H.
    assert (Hd : dflt (the (load ex_dflt None)) = ex_dflt) by reflexivity.
    rewrite Hd in H.
    destruct (decide (s = "Configuration")) as [->|]; [vm_compute; eauto|].
    destruct (decide (s = "Units")) as [->|]; [vm_compute; eauto|].
    exfalso. revert H. unfold ex_dflt. rewrite !lookup_insert_ne by done.
    rewrite lookup_singleton_ne by done. done.
  - repeat constructor.
  - split; vm_compute; reflexivity.
Qed.

(** Without the assumption that the user data has the shipped sections the
    property fails: restore_defaults raises half way (KeyError at
    config_tools.py:166) after having changed the live data, and the change is
    not on disk. *)
Theorem C01_writes_durable_without_sections_refuted :
  exists d dk k, load d dk = Ok k /\
    exists s o k'',
      snd (step all_ok k ORestoreAll) = Some KeyError /\
      load d (disk (run all_ok k [ORestoreAll])) = Ok k'' /\
      shows k'' s o <> shows (run all_ok k [ORestoreAll]) s o.
Proof.
  exists {[ "Configuration" := {[ "version" := "5.9" ]}; "Units" := {[ "base" := "u.txt" ]};
            "Materials" := {[ "GaAs" := "g" ]} ]}.
  exists (Some [LSec "Configuration"; LOpt "version" "5.9"; LSec "Units"; LOpt "base" "mine.txt"]).
  eexists. split; [apply the_ok; vm_compute; reflexivity|].
  exists "Units", "base".
  eexists. split; [vm_compute; reflexivity|].
  split; [apply the_ok; vm_compute; reflexivity|].
  vm_compute. discriminate.
Qed.
Print Assumptions C01_writes_durable_without_sections_refuted.

(** * C02 *)

(** What reset_defaults does guarantee: the file becomes the shipped
    configuration, every shipped option is shown with its shipped value, and
    an unconfirmed reset changes nothing.  Missing for the full property: the
    live object keeps user-added options, see the refutation below. *)
Theorem C02_reset_partial :
  forall k confirm response,
    let k' := fst (reset_defaults k confirm response) in
    (confirm = true \/ response = "Y" \/ response = "y" ->
       disk k' = Some (render (dflt k)) /\
       parse_file (render (dflt k)) = Some (dflt k) /\
       (forall s o v, cget (dflt k) s o = Some v -> shows k' s o = Some v) /\
       (forall s o, cget (dflt k) s o = None -> shows k' s o = shows k s o)) /\
    (confirm = false /\ response = "n" -> k' = k).
Proof.
  intros k confirm response k'. split.
  - intros Hc.
    assert (Hk : k' = mkCfg (dflt k) (merge_conf (dflt k) (user k))
                   (Some (render (dflt k))) (observers k) (log k)).
    { unfold k', reset_defaults. destruct Hc as [->|[->| ->]]; [done| |];
      by destruct confirm. }
    rewrite Hk. split; [done|]. split; [apply parse_render|].
    unfold shows, cget, merge_conf; simpl. split.
    + intros s o v. rewrite lookup_union_with.
      destruct (dflt k !! s) as [ds|]; [|done]. intros H.
      destruct (user k !! s) as [us|]; simpl; [|done].
      by apply lookup_union_Some_l.
    + intros s o. rewrite lookup_union_with.
      destruct (dflt k !! s) as [ds|]; simpl.
      * intros H. destruct (user k !! s) as [us|]; simpl; [|done].
        by rewrite lookup_union_r.
      * by destruct (user k !! s).
  - intros [-> ->]. done.
Qed.
Print Assumptions C02_reset_partial.

Example C02_case :
  let k := mkCfg ex_dflt (<["Units" := {["base" := "x"; "mine" := "m"]}]> ex_dflt) None ∅ [] in
  shows (fst (reset_defaults k true "")) "Units" "base" = Some "u.txt" /\
  shows (fst (reset_defaults k true "")) "Units" "mine" = Some "m" /\
  fst (reset_defaults k false "n") = k.
Proof. split; [|split]; [vm_compute; reflexivity|vm_compute; reflexivity|reflexivity]. Qed.

(** The full property fails: an entry that the user added survives the reset on
    the live object, is absent from the file right after it, and is written
    back to the file by the next unrelated save. *)
Theorem C02_reset_refuted :
  exists k s o v,
    load ex_dflt None = Ok k /\
    let k1 := run all_ok k [OSet s o v; OReset true ""] in
    let k2 := run all_ok k1 [OSet "Configuration" "welcome_message" "False"] in
    cget ex_dflt s o = None /\
    shows k1 s o = Some v /\
    (exists r1, load ex_dflt (disk k1) = Ok r1 /\ shows r1 s o = None) /\
    (exists r2, load ex_dflt (disk k2) = Ok r2 /\ shows r2 s o = Some v).
Proof.
  eexists. exists "Units", "mine", "m.txt". split; [apply the_ok; vm_compute; reflexivity|].
  split; [vm_compute; reflexivity|]. split; [vm_compute; reflexivity|].
  split; eexists; (split; [apply the_ok; vm_compute; reflexivity|vm_compute; reflexivity]).
Qed.
Print Assumptions C02_reset_refuted.

(** * C03 *)

(** Whatever the crash point of a save, an option that the file still shows and
    that opening accepts has the old value, the new value or the shipped
    value: no value is ever corrupted.  Missing for the full property:
    truncation can lose options or make the file unusable (below). *)
Theorem C03_crash_safe_partial :
  forall k before d k',
    d ∈ save_trace before (user k) ->
    load (dflt k) d = Ok k' ->
    d = before \/
    (forall s o v, shows k' s o = Some v ->
       shows k s o = Some v \/ cget (dflt k) s o = Some v).
Proof.
  intros k before d k' Hd Hl. unfold save_trace in Hd.
  apply elem_of_cons in Hd as [->|Hd]; [by left|]. right.
  apply elem_of_list_fmap in Hd as (n & -> & _).
  assert (Hp : exists c1, parse_file (take n (render (user k))) = Some c1 /\
             forall s o v, cget c1 s o = Some v -> cget (user k) s o = Some v).
  { eapply (parse_app _ (drop n (render (user k)))). rewrite take_drop. apply parse_render. }
  destruct Hp as (c1 & Hc1 & Hsub).
  revert Hl. unfold load. rewrite Hc1. simpl.
  destruct (c1 !! "Configuration") as [os|] eqn:Ec; [|done].
  set (k0 := mkCfg (dflt k) c1 (Some (take n (render (user k)))) ∅ []).
  assert (Hloop : forall l u u', restore_loop l u = (u', None) ->
     forall s o v, cget u' s o = Some v -> cget u s o = Some v \/ (s, o, v) ∈ l).
  { induction l as [|[[s1 o1] v1] l IH]; intros u u' H s o v Hv; simpl in H.
    - simplify_eq. by left.
    - destruct (u !! s1) as [os1|] eqn:E1; [|done].
      destruct (IH _ _ H _ _ _ Hv) as [H'|H'].
      + unfold cget in *. destruct (decide (s = s1)) as [->|].
        * rewrite lookup_insert in H'. rewrite E1.
          destruct (decide (o = o1)) as [->|].
          -- rewrite lookup_insert in H'. simplify_eq. right. left.
          -- rewrite lookup_insert_ne in H' by done. by left.
        * rewrite lookup_insert_ne in H' by done. by left.
      + right. by right. }
  assert (Hr : (match restore_defaults k0 with
           (k', None) => Ok k' | (_, Some e) => Err e end) = Ok k' ->
           forall s o v, shows k' s o = Some v ->
             shows k s o = Some v \/ cget (dflt k) s o = Some v).
  { unfold restore_defaults. simpl. destruct (restore_loop _ _) as [u' [e|]] eqn:El; [done|].
    intros Hk' s o v Hv. simplify_eq. unfold shows in Hv; simpl in Hv.
    destruct (Hloop _ _ _ El _ _ _ Hv) as [H|H].
    - left. by apply Hsub.
    - right. by apply elem_triples. }
  destruct (os !! "version") as [ver|]; [|by apply Hr].
  destruct (cget (dflt k) _ _) as [dver|]; [|done].
  destruct (String.eqb ver dver); [|by apply Hr].
  intros; simplify_eq. left. by apply Hsub.
Qed.
Print Assumptions C03_crash_safe_partial.

Example C03_case :
  let k := mkCfg ex_dflt ex_dflt (Some []) ∅ [] in
  Some (take 2 (render (user k))) ∈ save_trace (disk k) (user k) /\
  is_ok (load (dflt k) (Some (take 3 (render (user k))))) = true.
Proof.
  split; [|vm_compute; reflexivity].
  right. apply elem_of_list_fmap. exists 2. split; [done|]. apply elem_of_seq. vm_compute. lia.
Qed.

(** The full property fails: dying right after the file was opened for writing
    leaves an empty file, and every later start raises NoSectionError. *)
Theorem C03_crash_safe_refuted :
  forall d u before, Some [] ∈ save_trace before u /\ load d (Some []) = Err NoSectionError.
Proof.
  intros d u before. split; [|done].
  right. apply elem_of_list_fmap. exists 0. split; [done|]. apply elem_of_seq. lia.
Qed.
Print Assumptions C03_crash_safe_refuted.

(** Another crash point loses options silently: the configuration opens without
    error and shows neither the old nor the new value of a user option, although
    only another option was being changed. *)
Definition ex_user : conf := <["Others" := {["mine" := "m"]}]> ex_dflt.
Theorem C03_crash_silent_loss_refuted :
  exists k k2 d k' s o v,
    load (dflt k) (disk k) = Ok k /\
    set_item all_ok k "Configuration" "welcome_message" "False" = (k2, None) /\
    d ∈ save_trace (disk k) (user k2) /\
    load (dflt k) d = Ok k' /\
    shows k s o = Some v /\ shows k2 s o = Some v /\ shows k' s o = None.
Proof.
  set (k0 := the (load ex_dflt (Some (render ex_user)))).
  set (k2 := fst (set_item all_ok k0 "Configuration" "welcome_message" "False")).
  set (d := Some (take 5 (render (user k2)))).
  assert (E : load ex_dflt (Some (render ex_user)) = Ok k0)
    by (apply the_ok; vm_compute; reflexivity).
  exists k0, k2, d, (the (load ex_dflt d)), "Others", "mine", "m".
  assert (Ed : dflt k0 = ex_dflt) by (eapply load_dflt; exact E).
  assert (Ek : disk k0 = Some (render ex_user)).
  { unfold k0, load. rewrite parse_render. simpl.
    change (ex_user !! "Configuration") with (ex_dflt !! "Configuration"). reflexivity. }
  rewrite Ed, Ek. split; [done|]. split.
  { unfold k2. rewrite (surjective_pairing (set_item _ _ _ _ _)) at 1.
    apply injective_projections; [reflexivity|]. vm_compute. reflexivity. }
  split.
  { right. apply elem_of_list_fmap. exists 5. split; [done|]. apply elem_of_seq.
    assert (Hlen : length (render (user k2)) = 7) by (vm_compute; reflexivity).
    rewrite Hlen. lia. }
  split; [apply the_ok; vm_compute; reflexivity|].
  split; [vm_compute; reflexivity|]. split; vm_compute; reflexivity.
Qed.
Print Assumptions C03_crash_silent_loss_refuted.

(** * C04 *)

(** What a callback that mirrors a section knows after the announcements [l]:
    it starts from the options [m] and stores every announced value. *)
Definition replay (cb : nat) (l : list (nat * string * string))
    (m : gmap string string) : gmap string string :=
  fold_left (fun m e => if decide (e.1.1 = cb) then <[e.1.2 := e.2]> m else m) l m.

(** Operations that announce what they change: setting, restoring one default
    and removing (disabling) a default source; registering other callbacks. *)
Definition announcing (d : conf) (cb : nat) (x : op) : Prop :=
  match x with
  | OSet _ _ _ | ORestoreSource _ _ => True
  | ORemove s o => is_Some (cget d s o)
  | ORegister _ cb' => cb' <> cb
  | ORestoreAll | OReset _ _ => False
  end.

Definition only_observes (k : cfg) (cb : nat) (s : string) : Prop :=
  cb ∈ default [] (observers k !! s) /\
  forall s', s' <> s -> cb ∉ default [] (observers k !! s').

Lemma replay_app cb l1 l2 m : replay cb (l1 ++ l2) m = replay cb l2 (replay cb l1 m).
Proof. unfold replay. by rewrite fold_left_app. Qed.

Lemma replay_same cb o v (cbs : list nat) m :
  replay cb (map (fun c => (c, o, v)) cbs) m
  = if decide (cb ∈ cbs) then <[o := v]> m else m.
Proof.
  revert m. induction cbs as [|c cbs IH]; intros m.
  - done.
  - cbn [map]. unfold replay in *. cbn [fold_left fst snd]. rewrite IH. destruct (decide (c = cb)) as [->|].
    + rewrite insert_insert. rewrite (decide_True (P := cb ∈ cb :: cbs)) by left.
      by destruct (decide (cb ∈ cbs)).
    + destruct (decide (cb ∈ cbs)); destruct (decide (cb ∈ c :: cbs)) as [H|H]; try done.
      * exfalso. apply H. by right.
      * apply elem_of_cons in H as [->|H]; done.
Qed.

Lemma set_item_mirror acc k cb s s' o v m :
  only_observes k cb s -> user k !! s = Some m ->
  exists l m', log (fst (set_item acc k s' o v)) = log k ++ l /\
    observers (fst (set_item acc k s' o v)) = observers k /\
    user (fst (set_item acc k s' o v)) !! s = Some m' /\
    replay cb l m = m'.
Proof.
  intros [Hin Hout] Hm. unfold set_item.
  destruct (user k !! s') as [os|] eqn:E; [|exists [], m; rewrite app_nil_r; done].
  destruct (acc v); [|exists [], m; rewrite app_nil_r; done]. simpl.
  eexists. exists (if decide (s' = s) then <[o:=v]> os else m).
  split; [reflexivity|]. split; [done|].
  rewrite replay_same. destruct (decide (s' = s)) as [->|].
  - rewrite lookup_insert. split; [reflexivity|].
    rewrite decide_True by done. congruence.
  - rewrite lookup_insert_ne by done. split; [exact Hm|].
    rewrite decide_False; [done|]. by apply Hout.
Qed.

Lemma announcing_mirror acc k cb s h m :
  only_observes k cb s -> user k !! s = Some m ->
  Forall (announcing (dflt k) cb) h ->
  exists l, log (run acc k h) = log k ++ l /\
    user (run acc k h) !! s = Some (replay cb l m).
Proof.
  revert k m. induction h as [|x h IH]; intros k m Ho Hm Hf.
  - exists []. by rewrite app_nil_r.
  - inversion Hf as [|? ? Hx Hf']; subst.
    assert (Hstep : exists l m', log (fst (step acc k x)) = log k ++ l /\
       only_observes (fst (step acc k x)) cb s /\
       user (fst (step acc k x)) !! s = Some m' /\ replay cb l m = m').
    { assert (Hnop : exists l m', log k = log k ++ l /\ only_observes k cb s /\
                user k !! s = Some m' /\ replay cb l m = m').
      { exists [], m. by rewrite app_nil_r. }
      assert (Hset : forall s' o v, exists l m',
        log (fst (set_item acc k s' o v)) = log k ++ l /\
        only_observes (fst (set_item acc k s' o v)) cb s /\
        user (fst (set_item acc k s' o v)) !! s = Some m' /\ replay cb l m = m').
      { intros s' o v. destruct (set_item_mirror acc k cb s s' o v m Ho Hm) as (l & m' & H1 & H2 & H3).
        exists l, m'. split; [done|]. split; [|done]. unfold only_observes. by rewrite H2. }
      destruct x as [s' o v|s' o|s' o| |c r|s' cb']; simpl in *.
      - apply Hset.
      - unfold remove_source. unfold cget in Hx. destruct (dflt k !! s') as [ds|]; [|done].
        destruct Hx as [? ->]. apply Hset.
      - unfold restore_default_source. destruct (dflt k !! s') as [ds|]; [|done].
        destruct (ds !! o); [apply Hset|done].
      - done.
      - done.
      - unfold register_observer. destruct (user k !! s') as [os|] eqn:Es; [|done]. simpl.
        exists [], m. rewrite app_nil_r. split; [done|]. split; [|done].
        destruct Ho as [Hin Hout]. split; simpl.
        + destruct (decide (s = s')) as [->|].
          * rewrite lookup_insert. simpl. apply elem_of_app. by left.
          * by rewrite lookup_insert_ne.
        + intros s1 Hs1. destruct (decide (s1 = s')) as [->|].
          * rewrite lookup_insert. simpl. rewrite elem_of_app, elem_of_list_singleton.
            intros [H|H]; [by eapply Hout|congruence].
          * rewrite lookup_insert_ne by done. by apply Hout. }
    destruct Hstep as (l & m' & H1 & H2 & H3 & H4).
    destruct (IH (fst (step acc k x)) m' H2 H3) as (l' & H5 & H6).
    { by rewrite step_dflt. }
    exists (l ++ l'). change (run acc k (x :: h)) with (run acc (fst (step acc k x)) h).
    split; [by rewrite H5, H1, app_assoc|]. by rewrite H6, replay_app, H4.
Qed.

(** A callback observing exactly one section, which starts from the section's
    options and records every announcement, knows after any history of
    announcing operations exactly the section's current options.  Missing for
    the full property: restore_defaults, reset_defaults and removing a
    non-default source announce nothing (refuted below). *)
Theorem C04_observers_track_partial :
  forall accepts k cb s m h,
    only_observes k cb s ->
    user k !! s = Some m ->
    Forall (announcing (dflt k) cb) h ->
    exists announced,
      log (run accepts k h) = log k ++ announced /\
      forall o, shows (run accepts k h) s o = replay cb announced m !! o.
Proof.
  intros accepts k cb s m h Ho Hm Hf.
  destruct (announcing_mirror accepts k cb s h m Ho Hm Hf) as (l & H1 & H2).
  exists l. split; [done|]. intros o. unfold shows, cget. by rewrite H2.
Qed.
Print Assumptions C04_observers_track_partial.

Definition ex_observed : cfg :=
  mkCfg ex_dflt ex_dflt (Some (render ex_dflt)) {["Units" := [0]]} [].

Example C04_case :
  only_observes ex_observed 0 "Units" /\
  Forall (announcing ex_dflt 0)
    [OSet "Units" "mine" "m.txt"; ORemove "Units" "base"; ORestoreSource "Units" "base"; ORegister "Units" 1] /\
  log (run all_ok ex_observed [OSet "Units" "mine" "m.txt"; ORemove "Units" "base"])
  = [(0, "mine", "m.txt"); (0, "base", "")].
Proof.
  split; [|split].
  - split; [vm_compute; left|]. intros s' Hs'.
    unfold ex_observed. cbn [observers]. rewrite lookup_singleton_ne by done. simpl. apply not_elem_of_nil.
  - repeat constructor; vm_compute; eauto; discriminate.
  - vm_compute. reflexivity.
Qed.

(** The full property fails: after a user-added source is removed, the last
    thing the observer heard is still its value, and nothing was announced by
    the removal. *)
Theorem C04_observers_track_refuted :
  exists h s o v,
    only_observes ex_observed 0 "Units" /\
    shows (run all_ok ex_observed h) s o = None /\
    last (log (run all_ok ex_observed h)) = Some (0, o, v) /\
    snd (step all_ok (run all_ok ex_observed (take 1 h)) (ORemove s o)) = None /\
    h = [OSet s o v; ORemove s o].
Proof.
  exists [OSet "Units" "mine" "m.txt"; ORemove "Units" "mine"], "Units", "mine", "m.txt".
  split; [apply C04_case|].
  split; [vm_compute; reflexivity|]. split; [vm_compute; reflexivity|].
  split; [vm_compute; reflexivity|reflexivity].
Qed.
Print Assumptions C04_observers_track_refuted.

(** * C05 *)

(** restore_defaults, when every section of the shipped configuration exists in
    the user data: every shipped option gets its shipped value, everything else
    is untouched, and the result is on disk. *)
Theorem C05_restore_defaults_partial :
  forall k, has_default_sections k ->
    exists k', restore_defaults k = (k', None) /\
      (forall s o v, cget (dflt k) s o = Some v -> shows k' s o = Some v) /\
      (forall s o, cget (dflt k) s o = None -> shows k' s o = shows k s o) /\
      parse_file (default [] (disk k')) = Some (user k') /\
      dflt k' = dflt k.
Proof.
  intros k Hs. destruct (restore_defaults_ok k Hs) as (k' & H1 & H2 & H3 & H4 & H5 & H6 & H7 & H8).
  exists k'. repeat (split; [done|]). split; [|done]. rewrite H5. apply parse_render.
Qed.
Print Assumptions C05_restore_defaults_partial.

(** restore_default_source for a shipped option of an existing section, when the
    value is accepted by the interpolation check: that option gets its shipped value,
    the others are untouched, the result is on disk, and the observers of the section
    are told the shipped value.  An option that is not shipped is left alone. *)
Theorem C05_restore_source_partial :
  forall accepts k s o,
    (forall v, cget (dflt k) s o = Some v -> is_Some (user k !! s) -> accepts v = true ->
       exists k', restore_default_source accepts k s o = (k', None) /\
         shows k' s o = Some v /\
         (forall s' o', (s', o') <> (s, o) -> shows k' s' o' = shows k s' o') /\
         parse_file (default [] (disk k')) = Some (user k') /\
         log k' = log k ++ map (fun cb => (cb, o, v)) (default [] (observers k !! s))) /\
    (is_Some (dflt k !! s) -> cget (dflt k) s o = None -> restore_default_source accepts k s o = (k, None)).
Proof.
  intros acc k s o. unfold restore_default_source, set_item, cget, shows. split.
  - intros v Hd [os Hos] Hv. destruct (dflt k !! s) as [ds|]; [|done]. simpl in Hd. rewrite Hd, Hos, Hv.
    eexists. split; [done|]. unfold cget. simpl. split; [|split; [|split; [apply parse_render|done]]].
    + by rewrite lookup_insert, lookup_insert.
    + intros s' o' Hne. destruct (decide (s' = s)) as [->|Hs].
      * rewrite lookup_insert, Hos. assert (o' <> o) by congruence. by rewrite lookup_insert_ne.
      * by rewrite lookup_insert_ne.
  - intros [ds Hds]. rewrite Hds. intros Ho. by rewrite Ho.
Qed.
Print Assumptions C05_restore_source_partial.
Example C05_restore_source_case :
  let d := {[ "Units" := {[ "default" := "u.txt" ]} ]} : conf in
  let k := mkCfg d {[ "Units" := {[ "default" := "" ]} ]} None ∅ [] in
  cget (dflt k) "Units" "default" = Some "u.txt" /\ is_Some (user k !! "Units") /\ cget (dflt k) "Units" "mine" = None.
Proof. vm_compute. split; [done|]. split; [by eexists|done]. Qed.

(** Opening a file written by another version (or without a version) restores
    the defaults in exactly that way. *)
Theorem C05_version_change_partial :
  forall d ls u dver,
    parse_file ls = Some u ->
    (forall s o v, cget d s o = Some v -> is_Some (u !! s)) ->
    cget d "Configuration" "version" = Some dver ->
    cget u "Configuration" "version" <> Some dver ->
    exists k, load d (Some ls) = Ok k /\
      (forall s o v, cget d s o = Some v -> shows k s o = Some v) /\
      (forall s o, cget d s o = None -> shows k s o = cget u s o).
Proof.
  intros d ls u dver Hp Hs Hd Hu.
  set (k0 := mkCfg d u (Some ls) ∅ []).
  destruct (restore_defaults_ok k0 Hs) as (k' & H1 & H2 & H3 & H4 & H5 & H6 & H7 & H8).
  exists k'. split; [|done]. unfold load. rewrite Hp. simpl. fold k0. rewrite H1.
  destruct (Hs _ _ _ Hd) as [os Hos]. unfold cget in Hu. rewrite Hos in Hu |- *.
  destruct (os !! "version") as [ver|]; [|done].
  rewrite Hd. destruct (String.eqb_spec ver dver); [congruence|done].
Qed.
Print Assumptions C05_version_change_partial.

Example C05_case :
  exists u, parse_file [LSec "Configuration"; LOpt "version" "5.8"; LSec "Units"; LOpt "mine" "m"] = Some u /\
   (forall s o v, cget ex_dflt s o = Some v -> is_Some (u !! s)) /\
   cget u "Configuration" "version" <> Some "5.9".
Proof.
  eexists. split; [reflexivity|]. split; [|vm_compute; discriminate].
  intros s o v H. unfold cget in H.
  destruct (decide (s = "Configuration")) as [->|]; [vm_compute; eauto|].
  destruct (decide (s = "Units")) as [->|]; [vm_compute; eauto|].
  exfalso. revert H. unfold ex_dflt. rewrite !lookup_insert_ne by done.
  rewrite lookup_singleton_ne by done. done.
Qed.

(** Without that assumption it fails: a user file from a version that did not
    have one of today's sections cannot be opened at all (KeyError). *)
Theorem C05_new_section_refuted :
  exists d ls u, parse_file ls = Some u /\
    is_Some (u !! "Configuration") /\ is_Some (cget d "Configuration" "version") /\
    load d (Some ls) = Err KeyError.
Proof.
  exists ex_dflt, [LSec "Configuration"; LOpt "version" "5.8"]. eexists.
  split; [reflexivity|]. split; [vm_compute; eauto|]. split; [vm_compute; eauto|].
  vm_compute. reflexivity.
Qed.
Print Assumptions C05_new_section_refuted.

(** * C71 *)

(** A preference that has been set reads back as set, now and whenever the option
    is not written again (same option text).  Missing for the full property: the
    shipped value (refuted below). *)
Theorem C71_flags_partial :
  forall accepts k o b k1 r,
    accepts "True" = true -> accepts "False" = true ->
    is_Some (user k !! "Configuration") ->
    flag accepts k o (Some b) = (k1, r) ->
    r = Ok b /\
    forall k2, shows k2 "Configuration" o = shows k1 "Configuration" o ->
      flag accepts k2 o None = (k2, Ok b).
Proof.
  intros acc k o b k1 r Ht Hf [os Hos] H. unfold flag in H. unfold set_item in H.
  rewrite Hos in H. assert (acc (bool_str b) = true) as Hb by (destruct b; done).
  rewrite Hb in H. simpl in H. injection H as <- <-.
  assert (Hs : cget (<["Configuration":=<[o:=bool_str b]> os]> (user k)) "Configuration" o = Some (bool_str b)).
  { unfold cget. rewrite lookup_insert. by rewrite lookup_insert. }
  rewrite Hs. split; [by destruct b|].
  intros k2 Hk2. unfold flag. simpl. unfold shows in Hk2. simpl in Hk2. rewrite Hk2, Hs.
  by destruct b.
Qed.
Print Assumptions C71_flags_partial.
Example C71_case : is_Some (ex_dflt !! "Configuration").
Proof. vm_compute. eauto. Qed.

(** The shipped file says [welcome_message: 1] and [verbose_loading: 1], and a
    fresh installation reads both as switched off. *)
Theorem C71_flags_refuted :
  exists d k, cget d "Configuration" "welcome_message" = Some "1" /\
    load d None = Ok k /\ snd (flag all_ok k "welcome_message" None) = Ok false.
Proof.
  exists {[ "Configuration" := {[ "version" := "5.10.0"; "welcome_message" := "1"; "verbose_loading" := "1" ]} ]}.
  eexists. split; [vm_compute; reflexivity|].
  split; [apply the_ok; vm_compute; reflexivity|]. vm_compute. reflexivity.
Qed.
Print Assumptions C71_flags_refuted.

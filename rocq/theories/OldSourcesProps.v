(** Property C190 about the earlier manager of sources. *)
From stdpp Require Import gmap strings list.
From Verif Require Import Common ConfigModel SourcesModel SourcesProps OldSourcesModel.

(** * Names and paths *)
(** The path that the calls leave under a name: the last one given since it was last removed. *)
Definition expected (name : string) (r : option string) (x : old_op) : option string :=
  match x with
  | OAdd n p => if String.eqb n name then Some p else r
  | ORemove n _ => if String.eqb n name then None else r
  | ORead _ => r
  end.
Lemma holds_del l k n : holds (dict_del l k) n = if String.eqb k n then None else holds l n.
Proof.
  unfold dict_del. induction l as [|[a p] l IH]; [by destruct (String.eqb k n)|].
  rewrite filter_cons. cbn [fst]. destruct (String.eqb_spec a k) as [->|N].
  - destruct (decide _) as [D|D]; [done|]. rewrite IH. cbn [holds]. by destruct (String.eqb k n).
  - destruct (decide _) as [D|D]; [|done]. cbn [holds]. rewrite IH.
    destruct (String.eqb_spec a n) as [->|N2]; [|done]. destruct (String.eqb_spec k n); [congruence|done].
Qed.
Lemma mem_holds l n : dict_mem l n = false -> holds l n = None.
Proof.
  induction l as [|[a p] l IH]; [done|]. unfold dict_mem in *. cbn [existsb fst holds]. destruct (String.eqb a n); [done|]. exact IH.
Qed.
Lemma mem_in l n : dict_mem l n = false <-> n ∉ l.*1.
Proof.
  induction l as [|[a p] l IH]; unfold dict_mem in *; cbn.
  - split; [intros _; apply not_elem_of_nil|done].
  - rewrite not_elem_of_cons, orb_false_iff, IH. destruct (String.eqb_spec a n); intuition congruence.
Qed.
Lemma names_del l k : NoDup l.*1 -> NoDup (dict_del l k).*1 /\ forall n, n ∈ (dict_del l k).*1 <-> n <> k /\ n ∈ l.*1.
Proof.
  unfold dict_del. induction l as [|[a p] l IH]; intros H.
  - split; [constructor|]. intros n. cbn. rewrite elem_of_nil. tauto.
  - cbn in H. apply NoDup_cons in H as [H1 H2]. destruct (IH H2) as [I1 I2]. rewrite filter_cons. cbn [fst].
    destruct (String.eqb_spec a k) as [->|N]; destruct (decide _) as [D|D]; try done.
    + split; [done|]. intros n. rewrite I2. cbn. rewrite elem_of_cons. intuition congruence.
    + cbn. split; [constructor; [rewrite I2; tauto|done]|]. intros n. rewrite !elem_of_cons, I2. intuition congruence.
Qed.
(** Whatever is called, the sources are a dictionary, each name standing for the path last given
    for it since it was last removed. *)
Theorem C190_sources : forall fs xs name, let m := old_run fs xs old_init in
  NoDup (sources m).*1 /\ holds (sources m) name = fold_left (expected name) xs None.
Proof.
  intros fs xs name.
  assert (G : forall xs m, NoDup (sources m).*1 ->
    NoDup (sources (old_run fs xs m)).*1 /\ holds (sources (old_run fs xs m)) name = fold_left (expected name) xs (holds (sources m) name)).
  { induction xs0 as [|x xs0 IH]; intros m N; [done|]. unfold old_run in *. cbn [fold_left].
    assert (E : NoDup (sources (old_step fs m x).1).*1 /\ holds (sources (old_step fs m x).1) name = expected name (holds (sources m) name) x).
    { destruct x as [n p|n r|[n|]]; cbn [old_step expected].
      - unfold old_add. cbn [sources fst]. split; [by apply names_dict_set|]. apply holds_dict_set.
      - unfold old_remove. destruct (dict_mem (sources m) n) eqn:M.
        + destruct r; cbn [fst sources old_read_all]; (split; [by apply names_del|apply holds_del]).
        + cbn [fst]. split; [done|]. destruct (String.eqb_spec n name) as [->|]; [by apply mem_holds|done].
      - unfold old_read. destruct (path_of m n); done.
      - done. }
    destruct E as [E1 E2]. destruct (IH _ E1) as [I1 I2]. split; [exact I1|]. by rewrite I2, E2. }
  apply G. cbn. constructor.
Qed.
Example C190_sources_ex : let m := old_run ∅ [OAdd "a" "1"; OAdd "b" "2"; OAdd "a" "3"; ORemove "b" false; ORemove "c" true] old_init in
  sources m = [("a", "3")].
Proof. reflexivity. Qed.

(** * The database *)
(** Whatever happened before, after read() the database has exactly what the present sources
    define, the last one winning. *)
Definition shows_sources (fs : files) (m : managed) : Prop := forall s o,
  (forall v, last_definition fs (sources m).*2 s o v -> cget (database m) s o = Some v) /\
  (undefined fs (sources m).*2 s o -> cget (database m) s o = None).
Lemma shows_read fs m : database m = read_files fs ∅ (sources m).*2 -> shows_sources fs m.
Proof.
  intros E s o. rewrite E. split; [intros v; apply read_files_last|]. intros H. rewrite read_files_undef by done. done.
Qed.
Theorem C190_read : forall fs xs m e, old_step fs (old_run fs xs old_init) (ORead None) = (m, e) ->
  e = None /\ sources m = sources (old_run fs xs old_init) /\ shows_sources fs m.
Proof. intros fs xs m e [= <- <-]. split; [done|]. split; [done|]. apply shows_read. done. Qed.
(** Removing a source with its data, too. *)
Theorem C190_removed : forall fs xs name m e, old_step fs (old_run fs xs old_init) (ORemove name true) = (m, e) ->
  (e = None /\ fold_left (expected name) xs None <> None /\ holds (sources m) name = None /\ shows_sources fs m) \/
  (e = Some KeyError /\ fold_left (expected name) xs None = None /\ m = old_run fs xs old_init).
Proof.
  intros fs xs name m e E. destruct (C190_sources fs xs name) as [N H]. cbn zeta in H. rewrite <- H. clear H.
  cbn [old_step] in E. unfold old_remove in E. destruct (dict_mem (sources (old_run fs xs old_init)) name) eqn:M.
  - injection E as <- <-. left. split; [done|]. split; [|split].
    + clear N. induction (sources (old_run fs xs old_init)) as [|[a p] l IH]; [done|]. unfold dict_mem in *. cbn [existsb fst holds] in *.
      destruct (String.eqb a name); [done|]. by apply IH.
    + cbn [sources old_read_all]. rewrite holds_del, String.eqb_refl. done.
    + apply shows_read. done.
  - injection E as <- <-. right. split; [done|]. split; [by apply mem_holds|done].
Qed.
(** The calls that keep the database and the sources together: new names, removals with
    re-reading, and reading everything. *)
Definition careful (m : managed) (x : old_op) : Prop :=
  match x with OAdd n _ => n ∉ (sources m).*1 | ORemove _ r => r = true | ORead n => n = None end.
Fixpoint all_careful (fs : files) (m : managed) (xs : list old_op) : Prop :=
  match xs with [] => True | x :: r => careful m x /\ all_careful fs (old_step fs m x).1 r end.
Lemma dict_set_new l k v : k ∉ l.*1 -> dict_set l k v = l ++ [(k, v)].
Proof.
  induction l as [|[a p] l IH]; [done|]. cbn. rewrite not_elem_of_cons. intros [N H]. destruct (String.eqb_spec a k); [congruence|]. by rewrite IH.
Qed.
Theorem C190_careful : forall fs xs, all_careful fs old_init xs -> shows_sources fs (old_run fs xs old_init).
Proof.
  intros fs xs H. apply shows_read. revert H.
  assert (G : forall xs m, database m = read_files fs ∅ (sources m).*2 -> all_careful fs m xs ->
    database (old_run fs xs m) = read_files fs ∅ (sources (old_run fs xs m)).*2).
  { induction xs0 as [|x xs0 IH]; intros m E H; [done|]. destruct H as [C1 C2].
    unfold old_run in *. cbn [fold_left]. apply IH; [|exact C2].
    destruct x as [n p|n r|n]; cbn [careful] in C1.
    - cbn [old_step fst old_add database sources]. rewrite dict_set_new by done. rewrite fmap_app. unfold read_files in *.
      rewrite fold_left_app, <- E. done.
    - subst r. cbn [old_step]. unfold old_remove. destruct (dict_mem (sources m) n); done.
    - subst n. done. }
  apply G. done.
Qed.
Definition ex_files : files :=
  {["1" := {["s" := {["o" := "x"]}]}; "2" := {["s" := {["o" := "y"; "p" := "z"]}]}]}.
Example C190_careful_ex : all_careful ex_files old_init [OAdd "a" "2"; OAdd "b" "1"; ORemove "b" true; ORead None] /\
  cget (database (old_run ex_files [OAdd "a" "2"; OAdd "b" "1"; ORemove "b" true; ORead None] old_init)) "s" "o" = Some "y".
Proof.
  split; [|by vm_compute]. cbn. split; [apply not_elem_of_nil|]. split; [|done]. rewrite elem_of_list_singleton. discriminate.
Qed.
(** Otherwise they part: what a replaced source defined stays, what a source removed without
    re-reading defined stays, and reading one source again puts it before the later ones. *)
Theorem C190_replaced_refuted : exists fs xs s o, undefined fs (sources (old_run fs xs old_init)).*2 s o /\
  xs = [OAdd "a" "2"; OAdd "a" "1"] /\ cget (database (old_run fs xs old_init)) s o = Some "z".
Proof.
  exists ex_files, [OAdd "a" "2"; OAdd "a" "1"], "s", "p". split; [|split; [done|by vm_compute]].
  repeat constructor.
Qed.
Theorem C190_kept_refuted : exists fs xs s o, sources (old_run fs xs old_init) = [] /\
  xs = [OAdd "a" "1"; ORemove "a" false] /\ cget (database (old_run fs xs old_init)) s o = Some "x".
Proof. exists ex_files, [OAdd "a" "1"; ORemove "a" false], "s", "o". split; [done|]. split; [done|by vm_compute]. Qed.
Theorem C190_again_refuted : exists fs xs s o, last_definition fs (sources (old_run fs xs old_init)).*2 s o "y" /\
  xs = [OAdd "a" "1"; OAdd "b" "2"; ORead (Some "a")] /\ cget (database (old_run fs xs old_init)) s o = Some "x".
Proof.
  exists ex_files, [OAdd "a" "1"; OAdd "b" "2"; ORead (Some "a")], "s", "o". split; [|split; [done|by vm_compute]].
  exists ["1"], "2", []. split; [done|]. split; [by vm_compute|]. constructor.
Qed.
(** Reading one source is an error for a name that no source has, which changes nothing, and for no other. *)
Theorem C190_read_name : forall fs xs name, let m := old_run fs xs old_init in
  snd (old_step fs m (ORead (Some name))) = (if decide (name ∈ (sources m).*1) then None else Some KeyError) /\
  (name ∉ (sources m).*1 -> fst (old_step fs m (ORead (Some name))) = m).
Proof.
  intros fs xs name m. cbn [old_step]. unfold old_read, path_of.
  assert (H : (exists p, List.find (fun p => String.eqb p.1 name) (sources m) = Some p) <-> name ∈ (sources m).*1).
  { generalize (sources m). clear. induction l as [|[a p] l IH]; cbn.
    - split; [intros [p H]; discriminate|intros H; by apply not_elem_of_nil in H].
    - rewrite elem_of_cons. destruct (String.eqb_spec a name) as [->|N]; [split; eauto|]. rewrite IH. intuition congruence. }
  destruct (List.find _ (sources m)) as [p|] eqn:E; cbn [fst snd].
  - rewrite decide_True by (apply H; eauto). split; [done|]. intros N. destruct N. apply H. eauto.
  - assert (N : name ∉ (sources m).*1) by (intros D; apply H in D as [p D]; discriminate). rewrite decide_False by done. done.
Qed.
Example C190_read_name_ex : snd (old_step ex_files (old_run ex_files [OAdd "a" "1"] old_init) (ORead (Some "b"))) = Some KeyError /\
  snd (old_step ex_files (old_run ex_files [OAdd "a" "1"] old_init) (ORead (Some "a"))) = None.
Proof. split; by vm_compute. Qed.

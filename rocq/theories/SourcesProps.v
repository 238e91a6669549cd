(** Properties C06 and C07: merging and removing data sources. *)
From stdpp Require Import gmap strings list.
From Verif Require Import Common ConfigModel SourcesModel.

(** * Specification *)

(** The value that the file at [path] gives to an option. *)
Definition defines (fs : files) (path s o : string) : option string :=
  match fs !! path with Some c => cget c s o | None => None end.

(** [last_definition fs paths s o v]: among [paths], read in this order, the last
    file defining the option gives it the value [v]. *)
Definition last_definition (fs : files) (paths : list string) (s o v : string) : Prop :=
  exists before path after,
    paths = before ++ path :: after /\
    defines fs path s o = Some v /\
    Forall (fun p => defines fs p s o = None) after.
Definition undefined (fs : files) (paths : list string) (s o : string) : Prop :=
  Forall (fun p => defines fs p s o = None) paths.

(** * Lemmas *)
Lemma cget_merge new old s o :
  cget (merge_conf new old) s o =
  match cget new s o with Some v => Some v | None => cget old s o end.
Proof.
  unfold cget, merge_conf. rewrite lookup_union_with.
  destruct (new !! s) as [n|], (old !! s) as [m|]; simpl; try done.
  - rewrite lookup_union. destruct (n !! o), (m !! o); done.
  - by destruct (n !! o).
Qed.

Lemma cget_read_file fs db p s o :
  cget (read_file fs db p) s o =
  match defines fs p s o with Some v => Some v | None => cget db s o end.
Proof.
  unfold read_file, defines. destruct (fs !! p); [|done]. apply cget_merge.
Qed.

Lemma read_files_last fs paths db s o v :
  last_definition fs paths s o v -> cget (read_files fs db paths) s o = Some v.
Proof.
  intros (b & p & a & -> & Hp & Ha). unfold read_files. rewrite fold_left_app. simpl.
  set (db' := read_file fs _ p).
  assert (Hd : cget db' s o = Some v) by (unfold db'; rewrite cget_read_file, Hp; done).
  clearbody db'. revert db' Hd. induction a as [|x a IH]; intros db' Hd; simpl; [done|].
  inversion Ha; subst. apply IH; [done|]. rewrite cget_read_file. by rewrite H1.
Qed.

Lemma read_files_undef fs paths db s o :
  undefined fs paths s o -> cget (read_files fs db paths) s o = cget db s o.
Proof.
  revert db. induction paths as [|p ps IH]; intros db H; [done|].
  inversion H; subst. unfold read_files in *. simpl. rewrite IH by done.
  rewrite cget_read_file. by rewrite H2.
Qed.

Lemma defined_dec fs paths s o :
  (exists v, last_definition fs paths s o v) \/ undefined fs paths s o.
Proof.
  induction paths as [|p ps IH].
  - right. constructor.
  - destruct IH as [[v (b & p' & a & -> & Hp & Ha)]|H].
    + left. exists v, (p :: b), p', a. done.
    + destruct (defines fs p s o) as [v|] eqn:E.
      * left. exists v, [], p, ps. done.
      * right. by constructor.
Qed.

(** Only additions: every call gives a name and a value. *)
Lemma managed_run_add fs m adds :
  database (managed_run fs m (map (fun p => (Some p.1, Some p.2)) adds))
  = read_files fs (database m) adds.*2.
Proof.
  revert m. induction adds as [|[s v] l IH]; intros m; [done|].
  unfold managed_run in *. simpl. by rewrite IH.
Qed.

(** * C06 *)

(** After construction from [srcs] and any number of additional sources, an
    option has the value of the last read file that defines it, and is absent
    when no read file defines it. *)
Theorem C06_last_source_wins :
  forall fs srcs adds s o,
    let m := managed_run fs (managed_init fs srcs) (map (fun p => (Some p.1, Some p.2)) adds) in
    let paths := srcs.*2 ++ adds.*2 in
    (forall v, last_definition fs paths s o v -> cget (database m) s o = Some v) /\
    (undefined fs paths s o -> cget (database m) s o = None) /\
    ((exists v, last_definition fs paths s o v) \/ undefined fs paths s o).
Proof.
  intros fs srcs adds s o m paths.
  assert (Hm : database m = read_files fs ∅ paths).
  { unfold m. rewrite managed_run_add. unfold managed_init, paths, read_files; simpl.
    by rewrite fold_left_app. }
  rewrite Hm. split; [|split].
  - intros v. apply read_files_last.
  - intros H. rewrite read_files_undef by done. done.
  - apply defined_dec.
Qed.
Print Assumptions C06_last_source_wins.

(** The path a list of (name, path) assignments leaves under a name. *)
Definition last_path (l : list (string * string)) (name : string) : option string :=
  fold_left (fun r p => if String.eqb p.1 name then Some p.2 else r) l None.
(** The path a dictionary (distinct names) holds under a name. *)
Fixpoint holds (l : list (string * string)) (name : string) : option string :=
  match l with
  | [] => None
  | (n, p) :: l' => if String.eqb n name then Some p else holds l' name
  end.
Lemma holds_dict_set l k v n : holds (dict_set l k v) n = if String.eqb k n then Some v else holds l n.
Proof.
  induction l as [|[k' v'] l IH]; simpl; [done|].
  destruct (String.eqb_spec k' k) as [->|Hk]; simpl.
  - by destruct (String.eqb_spec k n).
  - rewrite IH. destruct (String.eqb_spec k' n) as [->|]; [|done].
    destruct (String.eqb_spec k n) as [->|]; done.
Qed.
Lemma names_dict_set l k v : NoDup l.*1 -> NoDup (dict_set l k v).*1 /\
  forall n, n ∈ (dict_set l k v).*1 <-> n = k \/ n ∈ l.*1.
Proof.
  induction l as [|[k' v'] l IH]; simpl; intros H.
  - split; [apply NoDup_singleton|]. intros n. rewrite elem_of_list_singleton, elem_of_nil. tauto.
  - apply NoDup_cons in H as [H1 H2]. destruct (IH H2) as [I1 I2].
    destruct (String.eqb_spec k' k) as [->|Hk]; simpl.
    + split; [by constructor|]. intros n. rewrite !elem_of_cons. tauto.
    + split; [|intros n; rewrite !elem_of_cons, I2; tauto]. constructor; [|done]. rewrite I2. intros [->|]; done.
Qed.

(** The sources stay a dictionary, and after the construction from distinct names
    and any additions each name stands for the path last given for it. *)
Theorem C06_sources_follow :
  forall fs srcs adds,
    NoDup srcs.*1 ->
    let m := managed_run fs (managed_init fs srcs) (map (fun p => (Some p.1, Some p.2)) adds) in
    NoDup (sources m).*1 /\
    (forall name, holds (sources m) name = last_path (srcs ++ adds) name).
Proof.
  intros fs srcs adds Hnd m.
  assert (G : forall l m0, NoDup (sources m0).*1 ->
    let m1 := managed_run fs m0 (map (fun p => (Some p.1, Some p.2)) l) in
    NoDup (sources m1).*1 /\ forall name, holds (sources m1) name =
      fold_left (fun r p => if String.eqb p.1 name then Some p.2 else r) l (holds (sources m0) name)).
  { induction l as [|[n p] l IH]; intros m0 H0; simpl; [done|].
    destruct (IH (managed_read fs m0 (Some n) (Some p))) as [G1 G2].
    { simpl. by apply names_dict_set. }
    split; [exact G1|]. intros name. simpl in G2. specialize (G2 name). rewrite holds_dict_set in G2. exact G2. }
  destruct (G adds (managed_init fs srcs) Hnd) as [G1 G2]. split; [exact G1|].
  intros name. unfold m. rewrite G2. unfold last_path. rewrite fold_left_app. f_equal. simpl.
  clear - Hnd. induction srcs as [|[n p] l IH]; simpl; [done|]. apply NoDup_cons in Hnd as [H1 H2].
  simpl in *. destruct (String.eqb_spec n name) as [->|Hn].
  - assert (E : forall l r, name ∉ l.*1 -> fold_left (fun (r : option string) (p : string * string) => if String.eqb p.1 name then Some p.2 else r) l r = r).
    { clear. induction l as [|[a b] l IH]; intros r H; simpl; [done|]. simpl in H. apply not_elem_of_cons in H as [Ha Hl].
      destruct (String.eqb_spec a name); [congruence|]. by apply IH. }
    by rewrite E.
  - by apply IH.
Qed.
Print Assumptions C06_sources_follow.
Example C06_sources_case :
  NoDup ([("a", "a.txt"); ("b", "b.txt")] : list (string * string)).*1 /\
  last_path ([("a", "a.txt"); ("b", "b.txt")] ++ [("a", "new.txt")]) "a" = Some "new.txt".
Proof. split; [|done]. simpl. apply NoDup_cons. rewrite elem_of_list_singleton. split; [done|apply NoDup_singleton]. Qed.

Definition ex_files : files :=
  {[ "a.txt" := {[ "GaAs" := {[ "band_gap" := "1.42"; "mass" := "0.067" ]} ]};
     "b.txt" := {[ "GaAs" := {[ "band_gap" := "1.40" ]}; "InAs" := {[ "band_gap" := "0.35" ]} ]} ]}.

Example C06_case :
  last_definition ex_files ["a.txt"; "b.txt"] "GaAs" "band_gap" "1.40" /\
  last_definition ex_files ["a.txt"; "b.txt"] "GaAs" "mass" "0.067" /\
  undefined ex_files ["a.txt"; "b.txt"] "InAs" "mass".
Proof.
  split; [|split].
  - exists ["a.txt"], "b.txt", []. split; [done|]. split; [vm_compute; reflexivity|constructor].
  - exists [], "a.txt", ["b.txt"]. split; [done|]. split; [vm_compute; reflexivity|].
    repeat constructor.
  - repeat constructor.
Qed.

(** * C07 *)

(** Exact effect of removing a known source: what a remaining source defines is
    taken from the last remaining source (in the order of the sources), and
    everything else stays as it was.  Missing for the full property: the second
    part should be "is absent" (refuted below). *)
Theorem C07_remove_source_partial :
  forall fs m name s o,
    dict_mem (sources m) name = true ->
    let m' := managed_read fs m (Some name) None in
    let rest := (sources m').*2 in
    (forall p, p ∈ sources m' <-> p ∈ sources m /\ p.1 <> name) /\
    (forall v, last_definition fs rest s o v -> cget (database m') s o = Some v) /\
    (undefined fs rest s o -> cget (database m') s o = cget (database m) s o).
Proof.
  intros fs m name s o Hmem m' rest.
  assert (Hm' : m' = mkManaged (dict_del (sources m) name)
     (read_files fs (database m) (dict_del (sources m) name).*2)).
  { unfold m', managed_read. by rewrite Hmem. }
  unfold rest. rewrite Hm'. simpl. split; [|split].
  - intros p. unfold dict_del. rewrite elem_of_list_filter.
    rewrite String.eqb_neq. tauto.
  - intros v. apply read_files_last.
  - apply read_files_undef.
Qed.
Print Assumptions C07_remove_source_partial.

Definition ex_managed : managed :=
  managed_init ex_files [("first", "a.txt"); ("second", "b.txt")].
Example C07_case :
  dict_mem (sources ex_managed) "second" = true /\
  cget (database (managed_read ex_files ex_managed (Some "second") None)) "GaAs" "band_gap" = Some "1.42".
Proof. vm_compute. auto. Qed.

(** The full property fails: after the only source that defines a material is
    removed, its parameters are still in the database. *)
Theorem C07_remove_source_refuted :
  exists fs srcs name s o v,
    let m := managed_read fs (managed_init fs srcs) (Some name) None in
    dict_mem srcs name = true /\
    undefined fs (sources m).*2 s o /\
    cget (database m) s o = Some v.
Proof.
  exists ex_files, [("first", "a.txt"); ("second", "b.txt")], "second", "InAs", "band_gap", "0.35".
  split; [done|]. split; [repeat constructor|vm_compute; reflexivity].
Qed.
Print Assumptions C07_remove_source_refuted.

(** The same happens when a default source is disabled, which the configuration
    does by announcing the empty path (config_tools.py:133): no file is read
    and all of its data stays. *)
Theorem C07_disable_source_refuted :
  exists fs srcs name s o v,
    let m := managed_read fs (managed_init fs srcs) (Some name) (Some "") in
    dict_mem srcs name = true /\
    undefined fs (sources m).*2 s o /\
    cget (database m) s o = Some v.
Proof.
  exists ex_files, [("first", "a.txt"); ("second", "b.txt")], "second", "InAs", "band_gap", "0.35".
  split; [done|]. split; [repeat constructor|vm_compute; reflexivity].
Qed.
Print Assumptions C07_disable_source_refuted.

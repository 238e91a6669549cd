(** C182, continued: new sessions, and what can go wrong. *)
From stdpp Require Import gmap strings list.
From Verif Require Import Common ConfigModel SourcesModel SourcesProps NewMatModel NewMatProps.

(** The database is what reading its sources afresh would give. *)
Definition synced (w : world) : Prop :=
  forall s o, cget (database (psys w)) s o = cget (read_files (confs w) ∅ (cfg_params w).*2) s o.

Lemma read_files_cget fs db paths s o :
  cget (read_files fs db paths) s o = match cget (read_files fs ∅ paths) s o with Some v => Some v | None => cget db s o end.
Proof.
  destruct (defined_dec fs paths s o) as [[v H]|H].
  - by rewrite !(read_files_last fs paths _ s o v H).
  - rewrite !read_files_undef by done. unfold cget at 2. by rewrite lookup_empty.
Qed.
Lemma cget_empty_files fs paths s o : cget (read_files fs ∅ paths) s o = None <-> undefined fs paths s o.
Proof.
  destruct (defined_dec fs paths s o) as [[v H]|H].
  - rewrite (read_files_last fs paths _ s o v H). split; [done|]. intros U. destruct H as (b & p & a & -> & Hp & _).
    unfold undefined in U. rewrite Forall_app, Forall_cons in U. destruct U as (_ & U & _). congruence.
  - rewrite read_files_undef by done. unfold cget. rewrite lookup_empty. done.
Qed.
Lemma dict_set_new l k v : dict_mem l k = false -> dict_set l k v = l ++ [(k, v)].
Proof.
  unfold dict_mem. induction l as [|[n p] l IH]; simpl; [done|]. destruct (String.eqb n k); simpl; [done|]. intros H. by rewrite IH.
Qed.
Lemma read_files_same fs fs' paths : (forall p s o, p ∈ paths -> defines fs p s o = defines fs' p s o) ->
  forall s o, cget (read_files fs ∅ paths) s o = cget (read_files fs' ∅ paths) s o.
Proof.
  intros H s o. induction paths as [|p ps IH] using rev_ind; [done|]. unfold read_files in *. rewrite !fold_left_app. simpl.
  rewrite !cget_read_file. rewrite (H p) by (apply elem_of_app; right; left). rewrite IH; [done|].
  intros q s' o' Hq. apply H. apply elem_of_app. by left.
Qed.
Lemma register_synced uf w : wired uf w -> synced w -> synced (register_custom uf w).
Proof.
  intros (_ & HS & _) Hs s o. unfold register_custom. destruct (dict_mem (cfg_params w) "custom") eqn:E; [by apply Hs|]. simpl.
  rewrite dict_set_new by done. rewrite fmap_app. unfold read_files. rewrite fold_left_app. simpl. rewrite !cget_read_file.
  destruct (defines _ (param_path uf) s o); [done|]. rewrite Hs. apply read_files_same.
  intros p s' o' _. destruct (confs w !! param_path uf) eqn:Q; [done|]. unfold defines, files.
  destruct (decide (p = param_path uf)) as [->|N]; [|by rewrite lookup_insert_ne]. rewrite lookup_insert, Q. unfold cget. by rewrite lookup_empty.
Qed.

(** ** The next session *)
(** The next session reads the same parameters as the one of create_new_material has, of every material,
    unless custom parameters of the material were dropped by giving none. *)
Theorem C182_restart : forall uf w name ns ks psrc over ans w', wired uf w -> synced w ->
  (psrc = None -> forall o, defines (confs w) (param_path uf) name o = None) ->
  create uf w name ns ks psrc over ans = (w', Created) ->
  forall s o, cget (database (psys (restart w'))) s o = cget (database (psys w')) s o.
Proof.
  intros uf w name ns ks psrc over ans w' HW Hs HD HC s o.
  destruct (created_parts uf w w' name ns ks psrc over ans HW HC) as (dn & dk & fs1 & H1 & E1 & H2 & EP & E2 & E3 & E4 & E5 & E6 & E7 & E8 & E9).
  unfold restart. simpl. rewrite E8, E2, (read_files_cget _ (database _)).
  destruct (cget (read_files (confs w') ∅ (cfg_params (register_custom uf w)).*2) s o) eqn:Q; [done|].
  rewrite (register_synced uf w HW Hs). symmetry. apply cget_empty_files. apply cget_empty_files in Q.
  assert (KEEP : defines (confs (register_custom uf w)) (param_path uf) s o = None \/
                 is_Some (defines (confs w') (param_path uf) s o)).
  { destruct (defines (confs (register_custom uf w)) (param_path uf) s o) as [v|] eqn:V; [|by left]. right.
    unfold defines, files in *. rewrite E6, lookup_insert. unfold new_params. destruct psrc as [p|].
    - assert (R : forall db, is_Some (cget db s o) -> is_Some (cget (read_file (confs (register_custom uf w)) db p) s o)).
      { intros db Hd. rewrite cget_read_file. by destruct (defines _ p s o). }
      unfold read_files. simpl. apply R. rewrite cget_read_file. unfold defines, files. by rewrite V.
    - specialize (HD eq_refl).
      assert (NN : s <> name).
      { intros ->. specialize (HD o). revert V. destruct (register_wired uf w HW) as (_ & _ & _ & _ & _ & _ & R8).
        unfold register_custom. destruct (dict_mem (cfg_params w) "custom"); [unfold defines, files in HD; rewrite HD; done|]. simpl.
        destruct (confs w !! param_path uf) eqn:Q'; [unfold defines, files in HD; rewrite Q' in *; by rewrite HD|].
        rewrite lookup_insert. unfold cget. by rewrite lookup_empty. }
      unfold cget. rewrite lookup_insert_ne by done. fold (cget (read_files (confs (register_custom uf w)) ∅ [param_path uf]) s o).
      unfold read_files. simpl. rewrite cget_read_file. unfold defines, files. by rewrite V. }
  unfold undefined in *. rewrite Forall_forall in *. intros p Hp. specialize (Q p Hp).
  destruct (decide (p = param_path uf)) as [->|N].
  - destruct KEEP as [K|[v K]]; [done|]. congruence.
  - unfold defines, files in *. rewrite E6, lookup_insert_ne in Q by done. done.
Qed.
Lemma fold_mats (l : list (string * string)) name d : forall acc : gmap string string,
  acc !! lower name = Some d -> (forall p, p ∈ l -> lower p.1 = lower name -> p.2 = d) ->
  fold_left (fun a p => <[lower p.1 := p.2]> a) l acc !! lower name = Some d.
Proof.
  induction l as [|p l IH]; intros acc Ha H; simpl; [done|]. apply IH.
  - destruct (decide (lower p.1 = lower name)) as [E|N].
    + rewrite E, lookup_insert. f_equal. apply H; [left|done].
    + by rewrite lookup_insert_ne.
  - intros q Hq. apply H. by right.
Qed.
Lemma fold_mats_in (l : list (string * string)) name d : forall acc : gmap string string,
  (name, d) ∈ l -> (forall p, p ∈ l -> lower p.1 = lower name -> p.2 = d) ->
  fold_left (fun a p => <[lower p.1 := p.2]> a) l acc !! lower name = Some d.
Proof.
  induction l as [|p l IH]; intros acc Hin H; [by apply elem_of_nil in Hin|]. simpl. apply elem_of_cons in Hin as [<-|Hin].
  - apply fold_mats; [by rewrite lookup_insert|]. intros q Hq. apply H. by right.
  - apply IH; [done|]. intros q Hq. apply H. by right.
Qed.
(** It finds the data of the material too, if no other name differs from it only in case. *)
Theorem C182_restart_data : forall uf w name ns ks psrc over ans w', wired uf w -> ks <> n_file uf name ->
  NoDup (cfg_mats w).*1 -> (forall n, n ∈ (cfg_mats w).*1 -> lower n = lower name -> n = name) ->
  create uf w name ns ks psrc over ans = (w', Created) ->
  cget (database (psys (restart w'))) name "x" = None -> is_Some (database (psys (restart w')) !! name) ->
  exists c w'', material (restart w') name = Some (c, w'') /\ data_of w'' "n" c = plain w !! ns /\ data_of w'' "k" c = plain w !! ks.
Proof.
  intros uf w name ns ks psrc over ans w' HW HK HN HU HC HX [os Hos].
  destruct (created_parts uf w w' name ns ks psrc over ans HW HC) as (dn & dk & fs1 & H1 & E1 & H2 & EP & E2 & E3 & E4 & E5 & E6 & E7 & E8 & E9).
  unfold material. rewrite Hos. unfold restart at 1. simpl. rewrite lookup_empty.
  assert (Hx : os !! "x" = None) by (unfold cget in HX; by rewrite Hos in HX). rewrite Hx.
  assert (HM : fold_left (fun d p => <[lower p.1 := p.2]> d) (cfg_mats w') (∅ : gmap string string) !! lower name = Some (folder uf name)).
  { apply fold_mats_in.
    - rewrite E3. apply holds_in. by rewrite holds_dict_set, String.eqb_refl.
    - rewrite E3. destruct (names_dict_set (cfg_mats w) name (folder uf name) HN) as [ND IN]. intros [n d] Hp Hl. simpl in *.
      assert (n = name).
      { assert (Hn : n ∈ (dict_set (cfg_mats w) name (folder uf name)).*1) by (apply elem_of_list_fmap; by exists (n, d)).
        apply IN in Hn as [->|Hn]; [done|]. by apply HU. }
      subst n. assert (G : forall l, NoDup l.*1 -> (name, d) ∈ l -> holds l name = Some d).
      { clear. induction l as [|[n p] l IH]; simpl; intros H Hi; [by apply elem_of_nil in Hi|]. apply NoDup_cons in H as [Ha Hb].
        apply elem_of_cons in Hi as [[= <- <-]|Hi]; [by rewrite String.eqb_refl|]. destruct (String.eqb_spec n name) as [->|]; [|auto].
        exfalso. apply Ha. apply elem_of_list_fmap. by exists (name, d). }
      specialize (G _ ND Hp). rewrite holds_dict_set, String.eqb_refl in G. congruence. }
  rewrite HM. do 2 eexists. split; [done|].
  unfold data_of, data_path. simpl. change (folder uf name +:+ "/n.txt") with (n_file uf name). change (folder uf name +:+ "/k.txt") with (k_file uf name).
  rewrite EP. rewrite lookup_insert_ne by (intros Q; by apply (n_k_file uf name)). rewrite lookup_insert, E1, lookup_insert, H1.
  split; [done|]. rewrite E1, lookup_insert_ne in H2 by congruence. done.
Qed.

(** ** Cases, and what can go wrong *)
Definition files0 : gmap string conf :=
  {[ "d.txt" := {[ "GaAs" := {[ "gap" := "1.42" ]} ]}; "alloy.txt" := {[ "MyAlloy" := {[ "x" := "In" ]} ]}; "new.txt" := {[ "Mine" := {[ "gap" := "3" ]} ]};
     "U/custom_parameters.txt" := {[ "Mine" := {[ "gap" := "1"; "mass" := "2" ]} ]} ]}.
Definition data0 : gmap string string := {[ "n0" := "N"; "k0" := "K"; "lib/gaas/n.txt" := "Ngaas"; "lib/gaas/k.txt" := "Kgaas" ]}.
Definition world0 : world := restart (World files0 data0 [("defaults", "d.txt"); ("custom", "U/custom_parameters.txt")] [("GaAs", "lib/gaas")] (mkManaged [] ∅) ∅ ∅).
Lemma world0_ok : wired "U" world0 /\ synced world0.
Proof.
  split; [|intros s o; done]. split; [|split; [done|by right]]. simpl.
  apply NoDup_cons. split; [intros H; apply elem_of_list_singleton in H; done|apply NoDup_singleton].
Qed.
Definition has (w : world) (name : string) : bool := match database (psys w) !! name with Some _ => true | None => false end.
Definition class_of (w : world) (name : string) : mclass :=
  match known w !! name with
  | Some c => c
  | None => mkClass (msys w !! lower name) (match database (psys w) !! name with Some os => os !! "x" | None => None end)
  end.
Definition use (w : world) (name : string) : world :=
  match material w name with Some (_, w') => w' | None => w end.
Lemma material_has w name : has w name = true -> material w name = Some (class_of w name, use w name).
Proof. unfold has, use, class_of, material. destruct (database (psys w) !! name); [|done]. by destruct (known w !! name). Qed.
Lemma material_has_not w name : has w name = false -> material w name = None.
Proof. unfold has, material. by destruct (database (psys w) !! name). Qed.
Lemma has_not w name : has w name = false -> database (psys w) !! name = None.
Proof. unfold has. by destruct (database (psys w) !! name). Qed.
Lemma outcome_is (r : world * outcome) o : r.2 = o -> r = (r.1, o).
Proof. intros <-. by destruct r. Qed.
Ltac by_class := apply material_has; vm_compute; reflexivity.
Ltac by_outcome := apply outcome_is; vm_compute; reflexivity.
Ltac by_comp := vm_compute; reflexivity.
Definition files_has (w : world) (p name : string) : bool := match confs w !! p with Some c => match c !! name with Some _ => true | None => false end | None => false end.
Lemma files_has_spec w p name : files_has w p name = true -> exists c, confs w !! p = Some c /\ is_Some (c !! name).
Proof. unfold files_has. destruct (confs w !! p) as [c|]; [|done]. destruct (c !! name) eqn:E; [|done]. intros _. exists c. split; [done|]. by rewrite E. Qed.

(** A material as it should be, now and in the next session. *)
Example C182_ex : exists w' c w'', create "U" world0 "Other" "n0" "k0" None false "" = (w', Created) /\
  describes "U" world0 "Other" None /\ known world0 !! "Other" = None /\ cget (database (psys w')) "Other" "x" = None /\
  material w' "Other" = Some (c, w'') /\ data_of w'' "n" c = Some "N" /\ data_of w'' "k" c = Some "K" /\
  has (restart w') "Other" = true /\ NoDup (cfg_mats world0).*1 /\
  (forall n, n ∈ (cfg_mats world0).*1 -> lower n = lower "Other" -> n = "Other").
Proof.
  set (r := create "U" world0 "Other" "n0" "k0" None false ""). exists r.1, (class_of r.1 "Other"), (use r.1 "Other").
  split; [by_outcome|]. split; [done|]. split; [by_comp|]. split; [by_comp|]. split; [by_class|]. split; [by_comp|]. split; [by_comp|]. split; [by_comp|].
  split; [apply NoDup_singleton|]. intros n Hn. apply elem_of_list_singleton in Hn as ->. vm_compute. done.
Qed.
(** A material with parameters, and the file that describes it. *)
Example C182_file_ex : exists w', wired "U" world0 /\ describes "U" world0 "Mine" (Some "new.txt") /\
  create "U" world0 "Mine" "n0" "k0" (Some "new.txt") false "Y" = (w', Created) /\
  cget (database (psys w')) "Mine" "gap" = Some "3" /\ cget (database (psys w')) "GaAs" "gap" = Some "1.42".
Proof.
  exists (create "U" world0 "Mine" "n0" "k0" (Some "new.txt") false "Y").1. split; [apply world0_ok|].
  split; [split; [done|apply files_has_spec; by_comp]|]. split; [by_outcome|]. split; by_comp.
Qed.
(** Without a question, a new name takes away the data of a material whose name differs in case. *)
Theorem C182_case_refuted : exists w name other w' c w'' c0 w0, wired "U" w /\ name <> other /\
  database (psys w) !! name = None /\ holds (cfg_mats w) name = None /\
  material w other = Some (c0, w0) /\ data_of w0 "n" c0 = Some "Ngaas" /\
  create "U" w name "n0" "k0" None false "" = (w', Created) /\
  material w' other = Some (c, w'') /\ data_of w'' "n" c = Some "N".
Proof.
  set (r := create "U" world0 "gaas" "n0" "k0" None false "").
  exists world0, "gaas", "GaAs", r.1, (class_of r.1 "GaAs"), (use r.1 "GaAs"), (class_of world0 "GaAs"), (use world0 "GaAs").
  split; [apply world0_ok|]. split; [done|]. split; [apply has_not; by_comp|]. split; [by_comp|]. split; [by_class|]. split; [by_comp|].
  split; [by_outcome|]. split; [by_class|]. by_comp.
Qed.
(** A material that was used before it was overwritten keeps its old data for the session. *)
Theorem C182_used_refuted : exists w name w' c w'' c0 w0, material w name = Some (c0, w0) /\
  create "U" w0 name "n0" "k0" None true "" = (w', Created) /\
  material w' name = Some (c, w'') /\ data_of w'' "n" c = Some "Ngaas" /\
  (exists c1 w1, material (restart w') name = Some (c1, w1) /\ data_of w1 "n" c1 = Some "N").
Proof.
  set (w0 := use world0 "GaAs"). set (r := create "U" w0 "GaAs" "n0" "k0" None true "").
  exists world0, "GaAs", r.1, (class_of r.1 "GaAs"), (use r.1 "GaAs"), (class_of world0 "GaAs"), w0.
  split; [by_class|]. split; [by_outcome|]. split; [by_class|]. split; [by_comp|].
  exists (class_of (restart r.1) "GaAs"), (use (restart r.1) "GaAs"). split; [by_class|]. by_comp.
Qed.
(** The data of an alloy are copied to files that it does not read. *)
Theorem C182_alloy_refuted : exists w name p w' c w'', wired "U" w /\ describes "U" w name (Some p) /\
  create "U" w name "n0" "k0" (Some p) false "" = (w', Created) /\
  material w' name = Some (c, w'') /\ data_of w'' "n" c = None /\ plain w'' !! n_file "U" name = Some "N".
Proof.
  set (r := create "U" world0 "MyAlloy" "n0" "k0" (Some "alloy.txt") false "").
  exists world0, "MyAlloy", "alloy.txt", r.1, (class_of r.1 "MyAlloy"), (use r.1 "MyAlloy"). split; [apply world0_ok|].
  split; [split; [done|apply files_has_spec; by_comp]|]. split; [by_outcome|]. split; [by_class|]. split; by_comp.
Qed.
(** A file of parameters that does not exist is not noticed, and there is no material. *)
Theorem C182_missing_file_refuted : exists w name p w', wired "U" w /\ confs w !! p = None /\
  create "U" w name "n0" "k0" (Some p) false "" = (w', Created) /\ material w' name = None.
Proof.
  exists world0, "Other", "nowhere.txt", (create "U" world0 "Other" "n0" "k0" (Some "nowhere.txt") false "").1.
  split; [apply world0_ok|]. split; [by_comp|]. split; [by_outcome|]. apply material_has_not. by_comp.
Qed.
(** Overwriting does not remove parameters: with a file the old ones that it does not have stay for good,
    without one they stay until the end of the session. *)
Theorem C182_overwrite_refuted : exists w name p w' w2, wired "U" w /\
  create "U" w name "n0" "k0" (Some p) true "" = (w', Created) /\ defines (confs w) p name "mass" = None /\
  cget (database (psys (restart w'))) name "mass" = Some "2" /\
  create "U" w name "n0" "k0" None true "" = (w2, Created) /\
  cget (database (psys w2)) name "mass" = Some "2" /\ cget (database (psys (restart w2))) name "mass" = None.
Proof.
  exists world0, "Mine", "new.txt", (create "U" world0 "Mine" "n0" "k0" (Some "new.txt") true "").1, (create "U" world0 "Mine" "n0" "k0" None true "").1.
  split; [apply world0_ok|]. split; [by_outcome|]. split; [by_comp|]. split; [by_comp|]. split; [by_outcome|]. split; by_comp.
Qed.
(** A failure is not undone: when the k file is missing, the n data are the new ones already. *)
Theorem C182_failed_refuted : exists w w1 name w', create "U" w name "n0" "k0" None false "" = (w1, Created) /\
  create "U" w1 name "k0" "nowhere" None true "" = (w', Failed) /\
  plain w1 !! n_file "U" name = Some "N" /\ plain w' !! n_file "U" name = Some "K".
Proof.
  set (r := create "U" world0 "Other" "n0" "k0" None false ""). set (r2 := create "U" r.1 "Other" "k0" "nowhere" None true "").
  exists world0, r.1, "Other", r2.1. split; [by_outcome|]. split; [by_outcome|]. split; by_comp.
Qed.

(** C182: adding materials to the database. *)
From stdpp Require Import gmap strings list.
From Verif Require Import Common ConfigModel SourcesModel SourcesProps NewMatModel.

(** * Specification *)
(** The configuration and the parameter system agree, and the custom source is the file of custom
    parameters, as after a start of the program with files written by itself. *)
Definition wired (uf : string) (w : world) : Prop :=
  NoDup (cfg_params w).*1 /\ sources (psys w) = cfg_params w /\
  (holds (cfg_params w) "custom" = None \/ holds (cfg_params w) "custom" = Some (param_path uf)).
(** The file of parameters given is of use: it is there and describes the material. *)
Definition describes (uf : string) (w : world) (name : string) (psrc : option string) : Prop :=
  match psrc with
  | None => True
  | Some p => p <> param_path uf /\ exists c, confs w !! p = Some c /\ is_Some (c !! name)
  end.

(** * Lemmas *)
Lemma dict_mem_holds l k : dict_mem l k = true <-> is_Some (holds l k).
Proof.
  unfold dict_mem. induction l as [|[n p] l IH]; simpl; [split; [done|intros [? [=]]]|].
  destruct (String.eqb_spec n k); simpl; [split; [by eexists|done]|exact IH].
Qed.
Lemma holds_in l k v : holds l k = Some v -> (k, v) ∈ l.
Proof.
  induction l as [|[n p] l IH]; simpl; [done|]. destruct (String.eqb_spec n k) as [->|].
  - intros [= ->]. left.
  - intros H. right. auto.
Qed.
Lemma register_wired uf w : wired uf w ->
  let w1 := register_custom uf w in
  wired uf w1 /\ holds (cfg_params w1) "custom" = Some (param_path uf) /\ plain w1 = plain w /\ cfg_mats w1 = cfg_mats w /\
  msys w1 = msys w /\ known w1 = known w /\ forall p, p <> param_path uf -> confs w1 !! p = confs w !! p.
Proof.
  intros (Hn & Hs & Hc) w1. unfold w1, register_custom. destruct (dict_mem (cfg_params w) "custom") eqn:E.
  - apply dict_mem_holds in E as [v Hv]. destruct Hc as [Hc|Hc]; [congruence|].
    split; [|done]. split; [done|]. split; [done|]. by right.
  - simpl. assert (Hh : holds (dict_set (cfg_params w) "custom" (param_path uf)) "custom" = Some (param_path uf)) by by rewrite holds_dict_set.
    split; [split; [|split]|]; simpl.
    + by apply names_dict_set.
    + by rewrite Hs.
    + by right.
    + split; [done|]. do 4 (split; [done|]). intros p Hp. destruct (confs w !! param_path uf) eqn:Q; simpl; [done|]. apply lookup_insert_ne. congruence.
Qed.
Lemma merge_lookup_some new old s : is_Some (merge_conf new old !! s) <-> is_Some (new !! s) \/ is_Some (old !! s).
Proof.
  unfold merge_conf. rewrite lookup_union_with. destruct (new !! s), (old !! s); simpl; split; intros H; try (by eexists); try (by left; eexists); try (by right; eexists).
  - by destruct H.
  - destruct H as [[? [=]]|[? [=]]].
Qed.
Lemma read_file_some fs db p s : is_Some (db !! s) -> is_Some (read_file fs db p !! s).
Proof. intros H. unfold read_file. destruct (fs !! p); [|done]. apply merge_lookup_some. by right. Qed.
Lemma read_files_some fs paths : forall db s, is_Some (db !! s) \/ (exists p c, p ∈ paths /\ fs !! p = Some c /\ is_Some (c !! s)) ->
  is_Some (read_files fs db paths !! s).
Proof.
  unfold read_files. induction paths as [|p ps IH]; intros db s H; simpl.
  - destruct H as [H|(p & c & H & _)]; [done|]. by apply elem_of_nil in H.
  - apply IH. destruct H as [H|(q & c & Hq & Hc & Hs)]; [left; by apply read_file_some|].
    apply elem_of_cons in Hq as [->|Hq].
    + left. unfold read_file. rewrite Hc. apply merge_lookup_some. by left.
    + right. by exists q, c.
Qed.
Lemma copyfile_spec fs src dst fs' : copyfile fs src dst = Some fs' -> src <> dst /\ exists d, fs !! src = Some d /\ fs' = <[dst := d]> fs.
Proof.
  unfold copyfile. destruct (fs !! src) as [d|]; [|done]. destruct (String.eqb_spec src dst); [done|]. intros [= <-]. split; [done|]. by exists d.
Qed.
Lemma app_inj_l (a b c : string) : a +:+ b = a +:+ c -> b = c.
Proof. induction a as [|x a IH]; simpl; [done|]. intros [=]. auto. Qed.
Lemma n_k_file uf name : n_file uf name <> k_file uf name.
Proof. unfold n_file, k_file. intros H. apply app_inj_l in H. discriminate. Qed.

Section Created.
Context (uf : string) (w w' : world) (name ns ks : string) (psrc : option string) (over : bool) (ans : string).
Context (HW : wired uf w) (HC : create uf w name ns ks psrc over ans = (w', Created)).
Let w1 := register_custom uf w.
Lemma created_parts : exists dn dk fs1, plain w !! ns = Some dn /\ fs1 = <[n_file uf name := dn]> (plain w) /\ fs1 !! ks = Some dk /\
  plain w' = <[k_file uf name := dk]> fs1 /\
  cfg_params w' = cfg_params w1 /\ cfg_mats w' = dict_set (cfg_mats w) name (folder uf name) /\
  msys w' = <[lower name := folder uf name]> (msys w) /\ known w' = known w /\
  confs w' = <[param_path uf := new_params uf w1 name psrc]> (confs w1) /\
  sources (psys w') = cfg_params w1 /\
  database (psys w') = read_files (confs w') (database (psys w1)) (cfg_params w1).*2 /\
  holds (cfg_params w1) "custom" = Some (param_path uf).
Proof.
  destruct (register_wired uf w HW) as ((R1 & R2 & _) & R3 & R4 & R5 & R6 & R7 & R8). fold w1 in R1, R2, R3, R4, R5, R6, R7, R8.
  unfold create in HC. fold w1 in HC. destruct (exists_already w1 name && negb over && negb (String.eqb (lower ans) "y")); [done|].
  destruct (copyfile (plain w1) ns (n_file uf name)) as [fs1|] eqn:E1; [|done].
  destruct (copyfile fs1 ks (k_file uf name)) as [fs2|] eqn:E2; [|done]. injection HC as <-.
  apply copyfile_spec in E1 as (_ & dn & H1 & ->). apply copyfile_spec in E2 as (_ & dk & H2 & ->).
  rewrite R4 in H1, H2. exists dn, dk, (<[n_file uf name := dn]> (plain w)). simpl. rewrite R4, R5, R6, R7, R2. done.
Qed.
End Created.

(** ** A new material has its data *)
(** After create_new_material without error, the material exists; its optical data are the contents of
    the two files given, if it is not an alloy and was not used before. *)
Theorem C182_created : forall uf w name ns ks psrc over ans w',
  wired uf w -> describes uf w name psrc -> ks <> n_file uf name ->
  create uf w name ns ks psrc over ans = (w', Created) ->
  is_Some (database (psys w') !! name) /\ (name, folder uf name) ∈ cfg_mats w' /\
  (known w !! name = None -> cget (database (psys w')) name "x" = None ->
   exists c w'', material w' name = Some (c, w'') /\ data_of w'' "n" c = plain w !! ns /\ data_of w'' "k" c = plain w !! ks /\ is_Some (plain w !! ns) /\ is_Some (plain w !! ks)).
Proof.
  intros uf w name ns ks psrc over ans w' HW HD HK HC.
  destruct (created_parts uf w w' name ns ks psrc over ans HW HC) as (dn & dk & fs1 & H1 & E1 & H2 & EP & E2 & E3 & E4 & E5 & E6 & E7 & E8 & E9).
  destruct (register_wired uf w HW) as (_ & _ & _ & _ & _ & _ & RC).
  assert (HS : is_Some (database (psys w') !! name)).
  { rewrite E8. apply read_files_some. right. exists (param_path uf), (new_params uf (register_custom uf w) name psrc). split; [|split].
    - apply elem_of_list_fmap. exists ("custom", param_path uf). split; [done|]. by apply holds_in.
    - rewrite E6. apply lookup_insert.
    - unfold new_params. destruct psrc as [p|]; [|rewrite lookup_insert; by eexists].
      destruct HD as (Hp & c & Hc & Hn). apply read_files_some. right. exists p, c. split; [right; left|]. split; [|done]. by rewrite RC by done. }
  split; [done|]. split. { rewrite E3. apply holds_in. by rewrite holds_dict_set, String.eqb_refl. }
  intros HN HX. destruct HS as [os Hos]. unfold material. rewrite Hos, E5, HN.
  assert (Hx : os !! "x" = None) by (unfold cget in HX; by rewrite Hos in HX).
  rewrite E4, lookup_insert, Hx. do 2 eexists. split; [done|].
  unfold data_of, data_path. simpl. change (folder uf name +:+ "/n.txt") with (n_file uf name). change (folder uf name +:+ "/k.txt") with (k_file uf name).
  rewrite EP. rewrite lookup_insert_ne by (intros Q; by apply (n_k_file uf name)). rewrite lookup_insert, E1, lookup_insert, H1.
  assert (HK' : plain w !! ks = Some dk) by (rewrite E1, lookup_insert_ne in H2; [done|congruence]).
  rewrite HK'. split; [done|]. split; [done|]. split; by eexists.
Qed.

(** The parameters in the file given are those of the database, unless a source read after the custom one
    has them too. *)
Theorem C182_parameters : forall uf w name ns ks p over ans w' c before after s o v,
  wired uf w -> p <> param_path uf -> confs w !! p = Some c -> cget c s o = Some v ->
  create uf w name ns ks (Some p) over ans = (w', Created) ->
  cfg_params w' = before ++ ("custom", param_path uf) :: after ->
  (forall q, q ∈ after.*2 -> q <> param_path uf /\ defines (confs w) q s o = None) ->
  cget (database (psys w')) s o = Some v.
Proof.
  intros uf w name ns ks p over ans w' c before after s o v HW Hp Hc Hv HC HB HA.
  destruct (created_parts uf w w' name ns ks (Some p) over ans HW HC) as (dn & dk & fs1 & H1 & E1 & H2 & EP & E2 & E3 & E4 & E5 & E6 & E7 & E8 & E9).
  destruct (register_wired uf w HW) as (_ & _ & _ & _ & _ & _ & RC).
  rewrite E8. apply read_files_last. exists before.*2, (param_path uf), after.*2. split; [|split].
  - rewrite <- E2, HB, fmap_app. done.
  - unfold defines, files. rewrite E6, lookup_insert. unfold new_params. apply read_files_last.
    exists [param_path uf], p, []. split; [done|]. split; [|constructor]. unfold defines, files. rewrite RC by done. by rewrite Hc.
  - apply Forall_forall. intros q Hq. apply HA in Hq as [Q1 Q2]. unfold defines, files in *. rewrite E6, lookup_insert_ne by done. by rewrite RC.
Qed.

(** ** Everything else stays *)
(** Other files, other materials in the configuration and the folders of materials whose names differ in
    more than case are untouched; so are the classes already made. *)
Theorem C182_frame : forall uf w name ns ks psrc over ans w' r, wired uf w ->
  create uf w name ns ks psrc over ans = (w', r) ->
  (forall p, p <> n_file uf name -> p <> k_file uf name -> plain w' !! p = plain w !! p) /\
  (forall p, p <> param_path uf -> confs w' !! p = confs w !! p) /\
  (forall n, n <> name -> holds (cfg_mats w') n = holds (cfg_mats w) n) /\
  (forall n, n <> "custom" -> holds (cfg_params w') n = holds (cfg_params w) n) /\
  (forall n, lower n <> lower name -> msys w' !! lower n = msys w !! lower n) /\ known w' = known w /\ wired uf w'.
Proof.
  intros uf w name ns ks psrc over ans w' r HW HC.
  destruct (register_wired uf w HW) as (R0 & R3 & R4 & R5 & R6 & R7 & R8).
  assert (RP : forall n, n <> "custom" -> holds (cfg_params (register_custom uf w)) n = holds (cfg_params w) n).
  { intros n Hn. unfold register_custom. destruct (dict_mem (cfg_params w) "custom"); [done|]. simpl. rewrite holds_dict_set.
    destruct (String.eqb_spec "custom" n); [congruence|done]. }
  assert (HC' := HC). unfold create in HC. destruct (exists_already (register_custom uf w) name && negb over && negb (String.eqb (lower ans) "y")).
  { injection HC as <- <-. rewrite R4, R5, R6, R7. done. }
  destruct (copyfile (plain (register_custom uf w)) ns (n_file uf name)) as [fs1|] eqn:E1.
  2:{ injection HC as <- <-. rewrite R4, R5, R6, R7. done. }
  destruct (copyfile fs1 ks (k_file uf name)) as [fs2|] eqn:E2.
  2:{ injection HC as <- <-. apply copyfile_spec in E1 as (_ & d & _ & ->). simpl. rewrite R4, R5, R6, R7. split; [|done].
      intros p Hp _. by rewrite lookup_insert_ne. }
  assert (r = Created) as -> by congruence.
  destruct (created_parts uf w w' name ns ks psrc over ans HW HC') as (dn & dk & fs & H1 & Ef & H2 & EP & E3 & E4 & E5 & E6 & E7 & E8 & E9 & E10).
  split; [|split; [|split; [|split; [|split; [|split]]]]].
  - intros p Hn Hk. rewrite EP, lookup_insert_ne, Ef, lookup_insert_ne by done. done.
  - intros p Hp. rewrite E7, lookup_insert_ne by done. by apply R8.
  - intros n Hn. rewrite E4, holds_dict_set. destruct (String.eqb_spec name n); [congruence|done].
  - intros n Hn. rewrite E3. by apply RP.
  - intros n Hn. rewrite E5, lookup_insert_ne by done. done.
  - done.
  - destruct R0 as (Q1 & Q2 & Q3). split; [by rewrite E3|]. split; [by rewrite E8|]. by rewrite E3.
Qed.
(** The user who does not want to overwrite a material keeps everything, except that the file of custom
    parameters is made and registered at the first use. *)
Theorem C182_declined : forall uf w name ns ks psrc over ans w',
  create uf w name ns ks psrc over ans = (w', Declined) ->
  over = false /\ lower ans <> "y" /\
  (dict_mem (cfg_params w) "custom" = true -> w' = w).
Proof.
  intros uf w name ns ks psrc over ans w' H. unfold create in H.
  destruct (exists_already (register_custom uf w) name && negb over && negb (String.eqb (lower ans) "y")) eqn:E.
  - injection H as <-. apply andb_true_iff in E as [E E3]. apply andb_true_iff in E as [_ E2].
    split; [by destruct over|]. split. { intros Q. rewrite Q in E3. done. }
    intros HM. unfold register_custom. by rewrite HM.
  - destruct (copyfile _ ns _); [|done]. by destruct (copyfile _ ks _).
Qed.
(** The question is put exactly for names that exist. *)
Theorem C182_question : forall uf w name ns ks psrc ans w' r, wired uf w ->
  database (psys (register_custom uf w)) !! name = None -> holds (cfg_mats w) name = None ->
  create uf w name ns ks psrc false ans = (w', r) -> r <> Declined.
Proof.
  intros uf w name ns ks psrc ans w' r HW H1 H2 H. destruct (register_wired uf w HW) as (_ & _ & _ & R5 & _).
  unfold create in H. assert (E : exists_already (register_custom uf w) name = false).
  { unfold exists_already. rewrite H1, R5. destruct (dict_mem (cfg_mats w) name) eqn:E; [|done]. apply dict_mem_holds in E as [? ?]. congruence. }
  rewrite E in H. simpl in H. destruct (copyfile _ ns _); [destruct (copyfile _ ks _)|]; injection H as <- <-; done.
Qed.

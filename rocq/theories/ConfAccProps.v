(** Property C188 about the accessors of the configuration and the deprecated functions. *)
From Coq Require Import Ascii.
From stdpp Require Import gmap strings list.
From Verif Require Import Common ConfigModel ConfigProps MatTextModel ConfAccModel.
From Verif Require MatTextProps.

(** * Specification *)
(** The path meant by a text of the configuration: below the folder of the package, or as
    it is. *)
Inductive meant (root : string) : string -> string -> Prop :=
| meant_below : forall s, MatTextProps.absent "SOLCORE_ROOT" s -> meant root ("SOLCORE_ROOT" +:+ s) (root +:+ s)
| meant_plain : forall s, MatTextProps.absent "SOLCORE_ROOT" s -> meant root s s.
(** What replaces a deprecated function, by its documentation. *)
Definition successor (x : call) : option op :=
  match x with
  | DReset c r => Some (OReset c r)
  | DRemove s o => Some (ORemove s o)
  | DAdd s o v => Some (OSet s o v)
  | DRestore s o => Some (ORestoreSource s o)
  | DAddUnits o v => Some (OSet "Units" o v)
  | DAddParameters o v => Some (OSet "Parameters" o v)
  | DAddMaterials o v => Some (OSet "Materials" o v)
  | DRemoveUnits o => Some (ORemove "Units" o)
  | DRemoveParameters o => Some (ORemove "Parameters" o)
  | DRemoveMaterials o => Some (ORemove "Materials" o)
  | DRestoreUnits o => Some (ORestoreSource "Units" o)
  | DRestoreParameters o => Some (ORestoreSource "Parameters" o)
  | DRestoreMaterials o => Some (ORestoreSource "Materials" o)
  | DWelcome b => Some (OSet "Configuration" "welcome_message" (if b then "True" else "False"))
  | DVerbose b => Some (OSet "Configuration" "verbose_loading" (if b then "True" else "False"))
  | DSpice v => Some (OSet "External programs" "spice" v)
  | DSmarts v => Some (OSet "External programs" "smarts" v)
  | DSave | DPrint | DCheck => None
  end.
Definition still_there (x : call) : Prop :=
  match x with DAdd _ _ _ | DSpice _ | DSmarts _ | DCheck => False | _ => True end.

Section Props.
Context (accepts : string -> bool) (root : string).
Notation get_item := (get_item root).
Notation access := (access accepts root).
Notation deprecated := (deprecated accepts root).

(** * Reading *)
Lemma replace_below s : MatTextProps.absent "SOLCORE_ROOT" s ->
  MatTextModel.replace "SOLCORE_ROOT" root ("SOLCORE_ROOT" +:+ s) = root +:+ s.
Proof.
  intros H. assert (E : MatTextModel.replace "SOLCORE_ROOT" root s = s) by (apply MatTextProps.replace_absent; [discriminate|exact H]).
  assert (P : String.prefix "SOLCORE_ROOT" ("SOLCORE_ROOT" +:+ s) = true) by (apply MatTextProps.prefix_spec; exists s; reflexivity).
  assert (K := MatTextProps.replace_skip "SOLCORE_ROOT" root "OLCORE_ROOT" s).
  unfold MatTextModel.replace in *.
  change (replace_from "SOLCORE_ROOT" root 0 ("SOLCORE_ROOT" +:+ s)) with
    (if String.prefix "SOLCORE_ROOT" ("SOLCORE_ROOT" +:+ s) then root +:+ replace_from "SOLCORE_ROOT" root 11 ("OLCORE_ROOT" +:+ s)
     else String "S"%char (replace_from "SOLCORE_ROOT" root 0 ("OLCORE_ROOT" +:+ s))).
  rewrite P. change 11 with (String.length "OLCORE_ROOT"). rewrite K, E. reflexivity.
Qed.
Lemma meant_replace v p : meant root v p -> MatTextModel.replace "SOLCORE_ROOT" root v = p.
Proof. intros [s H|s H]; [by apply replace_below|]. apply MatTextProps.replace_absent; [discriminate|exact H]. Qed.

(** A path that is set comes back as meant and is what later calls return; it is saved, the
    observers of the section are told, and no other option changes. *)
Theorem C188_set_get : forall s k o v p k1 r, accepts v = true -> is_Some (user k !! s) -> meant root v p ->
  access s k (Some o) (Some v) = (k1, r) ->
  r = Ok (Path p) /\ access s k1 (Some o) None = (k1, Ok (Path p)) /\
  disk k1 = Some (render (user k1)) /\
  (forall s' o', (s', o') <> (s, o) -> shows k1 s' o' = shows k s' o') /\
  log k1 = log k ++ map (fun cb => (cb, o, v)) (default [] (observers k !! s)).
Proof.
  intros s k o v p k1 r Ha [os Hs] Hp E. unfold ConfAccModel.access, set_get in E. unfold set_item in E. rewrite Hs, Ha in E.
  cbn [snd fst] in E. unfold ConfAccModel.get_item in E. cbn [user notify save set_user] in E.
  assert (C : cget (<[s:=<[o:=v]> os]> (user k)) s o = Some v) by (unfold cget; rewrite lookup_insert, lookup_insert; reflexivity).
  rewrite C in E. cbn [bindR] in E. rewrite (meant_replace _ _ Hp) in E.
  assert (E1 : k1 = notify (save (set_user k (<[s:=<[o:=v]> os]> (user k)))) s o v) by congruence.
  assert (E2 : r = Ok (Path p)) by congruence. clear E. subst k1 r.
  split; [reflexivity|]. split; [|split; [|split]].
  - unfold ConfAccModel.access, set_get. cbn [snd fst]. unfold ConfAccModel.get_item. cbn [user notify save set_user]. rewrite C.
    cbn [bindR]. by rewrite (meant_replace _ _ Hp).
  - reflexivity.
  - intros s' o' N. unfold shows. cbn [user notify save set_user]. unfold cget.
    destruct (decide (s' = s)) as [->|Ns]; [|by rewrite lookup_insert_ne].
    rewrite lookup_insert, Hs. rewrite lookup_insert_ne; [reflexivity|]. intros ->. by apply N.
  - reflexivity.
Qed.

(** Without a path nothing changes: the path set before is returned, or KeyError; without a
    name the list of the names that have a path. *)
Theorem C188_read : forall s k,
  (forall o v p, shows k s o = Some v -> meant root v p -> access s k (Some o) None = (k, Ok (Path p))) /\
  (forall o, shows k s o = None -> access s k (Some o) None = (k, Err KeyError)) /\
  (forall location, match access s k None location with
   | (k1, Ok (Names l)) => k1 = k /\ NoDup l /\ forall o, o ∈ l <-> is_Some (shows k s o)
   | (k1, Ok (Path _)) => False
   | (k1, Err e) => k1 = k /\ user k !! s = None
   end).
Proof.
  intros s k. unfold shows. split; [|split].
  - intros o v p H Hp. unfold ConfAccModel.access, set_get. cbn [fst snd]. unfold ConfAccModel.get_item. rewrite H. cbn [bindR]. by rewrite (meant_replace _ _ Hp).
  - intros o H. unfold ConfAccModel.access, set_get. cbn [fst snd]. unfold ConfAccModel.get_item. by rewrite H.
  - intros location. unfold ConfAccModel.access, sources. destruct (user k !! s) as [os|] eqn:E; cbn [bindR]; [|done].
    split; [done|]. split; [apply NoDup_fst_map_to_list|]. intros o. unfold cget. rewrite E.
    split.
    + intros (p & -> & H)%elem_of_list_fmap. destruct p as [a b]. apply elem_of_map_to_list in H. eauto.
    + intros [v H]. apply elem_of_list_fmap. exists (o, v). split; [done|]. by apply elem_of_map_to_list.
Qed.

(** * Deprecated functions *)
(** Each of those that still work does what replaces it, exception included; saving writes the
    file, and printing changes nothing. *)
Lemma access_set s k o v : exn_of (access s k (Some o) (Some v)) = set_item accepts k s o v.
Proof.
  unfold ConfAccModel.access, set_get, exn_of, set_item. destruct (user k !! s) as [os|] eqn:Hs; [|reflexivity].
  destruct (accepts v) eqn:Ha; [|reflexivity]. cbn [snd fst]. unfold ConfAccModel.get_item. cbn [user notify save set_user].
  assert (C : cget (<[s:=<[o:=v]> os]> (user k)) s o = Some v) by (unfold cget; rewrite lookup_insert, lookup_insert; reflexivity).
  rewrite C. reflexivity.
Qed.
Lemma flag_set k o b : exn_of (flag accepts k o (Some b)) = set_item accepts k "Configuration" o (bool_str b).
Proof.
  unfold flag, exn_of, set_item. destruct (user k !! "Configuration") as [os|] eqn:Hs; [|reflexivity].
  destruct (accepts (bool_str b)) eqn:Ha; [|reflexivity]. cbn [snd fst]. cbn [user notify save set_user].
  assert (C : cget (<["Configuration":=<[o:=bool_str b]> os]> (user k)) "Configuration" o = Some (bool_str b)) by (unfold cget; rewrite lookup_insert, lookup_insert; reflexivity).
  rewrite C. reflexivity.
Qed.
Theorem C188_deprecated_partial : forall k x, still_there x ->
  match successor x with
  | Some o => deprecated k x = step accepts k o
  | None => snd (deprecated k x) = None /\ user (fst (deprecated k x)) = user k /\
            (x = DSave -> disk (fst (deprecated k x)) = Some (render (user k))) /\
            (x = DPrint -> fst (deprecated k x) = k)
  end.
Proof.
  intros k x H. destruct x; cbn [successor ConfAccModel.deprecated step]; try reflexivity; try (exfalso; exact H).
  - repeat split; intros; try done.
  - apply access_set.
  - apply access_set.
  - apply access_set.
  - apply flag_set.
  - apply flag_set.
  - repeat split; intros; done.
Qed.
(** Four of them call methods that the configuration does not have: they raise whatever the
    configuration and the arguments, and set nothing, where their replacement does. *)
Theorem C188_deprecated_refuted :
  (forall k x, ~ still_there x -> deprecated k x = (k, Some AttributeError)) /\
  (accepts "/usr/bin/ngspice" = true -> exists k x o k1, ~ still_there x /\ successor x = Some o /\ step accepts k o = (k1, None) /\
     shows k1 "External programs" "spice" = Some "/usr/bin/ngspice" /\ shows (fst (deprecated k x)) "External programs" "spice" <> Some "/usr/bin/ngspice").
Proof.
  split.
  - intros k x H. destruct x; try (exfalso; apply H; exact Logic.I); reflexivity.
  - intros Ha. exists (mkCfg ∅ {[ "External programs" := {[ "spice" := "ngspice" ]} ]} None ∅ []), (DSpice "/usr/bin/ngspice").
    eexists _, _. split; [intros []|]. split; [reflexivity|]. split; [|split].
    + cbn [step]. unfold set_item. cbn [user]. rewrite lookup_singleton, Ha. reflexivity.
    + unfold shows. cbn [user notify save set_user]. unfold cget. by rewrite !lookup_insert.
    + unfold shows, cget. cbn [ConfAccModel.deprecated no_method fst user]. rewrite !lookup_singleton. discriminate.
Qed.
(** Reading an option through its section leaves SOLCORE_ROOT in the text: the two ways of
    reading differ. *)
Theorem C188_section_refuted : root <> "SOLCORE_ROOT" -> exists k s o a b, get_item k s o = Ok a /\ get_section_item k s o = Ok b /\ a <> b.
Proof.
  intros N. exists (mkCfg ∅ {[ "Units" := {[ "default" := "SOLCORE_ROOT" ]} ]} None ∅ []), "Units", "default", root, "SOLCORE_ROOT".
  assert (C : cget ({[ "Units" := {[ "default" := "SOLCORE_ROOT" ]} ]} : conf) "Units" "default" = Some "SOLCORE_ROOT") by (unfold cget; by rewrite !lookup_singleton).
  split; [|split; [|exact N]].
  - unfold ConfAccModel.get_item. cbn [user]. rewrite C. f_equal. 
    assert (E := replace_below "" ltac:(intros a b; destruct a; discriminate)). change ("SOLCORE_ROOT" +:+ "") with "SOLCORE_ROOT" in E. rewrite E. apply MatTextProps.app_nil.
  - unfold get_section_item. cbn [user]. by rewrite C.
Qed.
End Props.

Definition ex_conf : cfg := mkCfg ∅ {[ "Units" := {[ "default" := "SOLCORE_ROOT/units.txt" ]} ]} None ∅ [].
Lemma len_app (x y : string) : String.length (x +:+ y) = String.length x + String.length y.
Proof. induction x as [|a x IH]; [reflexivity|]. change (S (String.length (x +:+ y)) = S (String.length x + String.length y)). by rewrite IH. Qed.
Lemma no_root_slash : MatTextProps.absent "SOLCORE_ROOT" "/units.txt".
Proof. intros a b H. assert (L := f_equal String.length H). rewrite !len_app in L. cbn in L. lia. Qed.
Example C188_read_ex : access (fun _ => true) "/lib/solcore" "Units" ex_conf (Some "default") None = (ex_conf, Ok (Path "/lib/solcore/units.txt")) /\
  access (fun _ => true) "/lib/solcore" "Units" ex_conf (Some "mine") None = (ex_conf, Err KeyError).
Proof.
  destruct (C188_read (fun _ => true) "/lib/solcore" "Units" ex_conf) as (A & B & _). split.
  - apply (A "default" "SOLCORE_ROOT/units.txt"); [reflexivity|]. apply (meant_below "/lib/solcore" "/units.txt"). apply no_root_slash.
  - apply B. reflexivity.
Qed.
Example C188_set_get_ex : exists k1, access (fun _ => true) "/lib/solcore" "Units" ex_conf (Some "mine") (Some "/units.txt") = (k1, Ok (Path "/units.txt")) /\
  shows k1 "Units" "default" = Some "SOLCORE_ROOT/units.txt".
Proof.
  destruct (access (fun _ => true) "/lib/solcore" "Units" ex_conf (Some "mine") (Some "/units.txt")) as [k1 r] eqn:E.
  destruct (C188_set_get (fun _ => true) "/lib/solcore" "Units" ex_conf "mine" "/units.txt" "/units.txt" k1 r) as (A & _ & _ & B & _); [reflexivity|unfold ex_conf; cbn [user]; rewrite lookup_singleton; eauto|apply meant_plain, no_root_slash|exact E|].
  exists k1. split; [by rewrite A|]. rewrite B by discriminate. reflexivity.
Qed.
Example C188_deprecated_ex : still_there (DRemoveUnits "default") /\ successor (DRemoveUnits "default") = Some (ORemove "Units" "default").
Proof. split; [exact Logic.I|reflexivity]. Qed.

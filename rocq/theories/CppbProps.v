(** Properties of the parameters of oscillators, C185 (the model is CppbModel.v). *)
From Coq Require Import Reals Lra Lia Ascii String List Bool Arith.
From Coquelicot Require Import Complex.
From Verif Require Import Common CppbModel.
From Coq Require Import List.
Import ListNotations.
Open Scope R_scope.
Open Scope list_scope.

(** * Specification: a section of the file of parameters *)
Inductive line := Note (s : string) | Entry (k v : string).
Definition text (l : line) : string :=
  match l with Note s => s | Entry k v => String.append k (String.append " = " v) end.
Definition chars (s : string) : list ascii := list_ascii_of_string s.
Definition heading (m : string) : string := String.append "Material :: " m.
(** Lines of notes hold no equals sign or are comments; entries hold no further equals signs and no dollars. *)
Definition fair (float : string -> option R) (l : line) : Prop :=
  match l with
  | Note s => ~ In "="%char (chars s) /\ ~ In "$"%char (chars s) \/ exists c, s = String.append "$ " c /\ ~ In "$"%char (chars c)
  | Entry k v => ~ In "="%char (chars k) /\ ~ In "$"%char (chars k) /\ ~ In "="%char (chars v) /\ ~ In "$"%char (chars v)
                 /\ exists x, float v = Some x
  end.
Definition about (k : string) (l : line) : Prop := exists v, l = Entry k v.

(** * Proofs *)
Lemma prefix1 a s : String.prefix (String a EmptyString) s = match s with String b _ => if ascii_dec a b then true else false | _ => false end.
Proof. destruct s; [reflexivity|]. cbn. destruct (ascii_dec a a0); [destruct s|]; reflexivity. Qed.
Lemma contains_char a s : contains (String a EmptyString) s = true <-> In a (chars s).
Proof.
  induction s as [|b s IH]; [cbn; split; [discriminate|tauto]|].
  cbn [contains]. rewrite prefix1. cbn [chars list_ascii_of_string In]. fold (chars s).
  destruct (ascii_dec a b); cbn [orb]; [split; [left; congruence|reflexivity]|].
  rewrite IH. split; [right; assumption|]. intros [H|H]; [congruence|exact H].
Qed.
Lemma contains_not a s : ~ In a (chars s) -> contains (String a EmptyString) s = false.
Proof. intro H. destruct (contains _ s) eqn:E; [|reflexivity]. apply contains_char in E. tauto. Qed.
Lemma prefix_first a t s : String.prefix (String a t) s = true -> In a (chars s).
Proof. destruct s; [discriminate|]. cbn. destruct (ascii_dec a a0); [left; congruence|discriminate]. Qed.
Lemma contains_first a t s : contains (String a t) s = true -> In a (chars s).
Proof.
  induction s as [|b s IH]; [cbn; discriminate|].
  cbn [contains]. intro H. apply orb_true_iff in H. destruct H as [H|H]; [exact (prefix_first _ _ _ H)|].
  right. apply IH, H.
Qed.
Lemma contains_first_not a t s : ~ In a (chars s) -> contains (String a t) s = false.
Proof. intro H. destruct (contains _ s) eqn:E; [|reflexivity]. apply contains_first in E. tauto. Qed.
Lemma chars_app s t : chars (String.append s t) = chars s ++ chars t.
Proof. induction s; [reflexivity|]. cbn. f_equal. exact IHs. Qed.
(** cut of a text without the separator *)
Lemma sep_eq s : String.prefix " = " s = true -> exists b r, s = String b r /\ In "="%char (chars r).
Proof.
  destruct s as [|b s]; [discriminate|]. cbn [String.prefix]. destruct (ascii_dec " " b); [|discriminate].
  intro H. exists b, s. split; [reflexivity|]. exact (prefix_first _ _ _ H).
Qed.
Lemma cut_none s : ~ In "="%char (chars s) -> cut s = (s, None).
Proof.
  induction s as [|b s IH]; [reflexivity|]. intro H. cbn [cut].
  destruct (String.prefix " = " (String b s)) eqn:E.
  { destruct (sep_eq _ E) as [b' [r [E1 E2]]]. injection E1 as -> ->. exfalso. apply H. right. exact E2. }
  rewrite IH; [reflexivity|]. intro H'. apply H. right. exact H'.
Qed.
Lemma cut_entry k v : ~ In "="%char (chars k) -> cut (String.append k (String.append " = " v)) = (k, Some v).
Proof.
  induction k as [|b k IH]; intro H; [destruct v; reflexivity|].
  change (String.append (String b k) (String.append " = " v)) with (String b (String.append k (String.append " = " v))).
  cbn [cut].
  destruct (String.prefix " = " (String b (String.append k (String.append " = " v)))) eqn:E.
  { exfalso. cbn [String.prefix] in E. destruct (ascii_dec " " b); [|discriminate].
    destruct k as [|b2 k]; [cbn in E; discriminate|].
    change (String.append (String b2 k) (String.append " = " v)) with (String b2 (String.append k (String.append " = " v))) in E.
    cbn [String.prefix] in E. destruct (ascii_dec "=" b2) as [<-|]; [|discriminate]. apply H. right. left. reflexivity. }
  rewrite IH; [reflexivity|]. intro H'. apply H. right. exact H'.
Qed.
Lemma dget_dput k k2 v d : dget k (dput k2 v d) = if String.eqb k2 k then Some v else dget k d.
Proof.
  induction d as [|[a w] d IH]; [reflexivity|]. cbn [dput dget].
  destruct (String.eqb_spec a k2) as [->|Hne].
  - cbn [dget]. destruct (String.eqb_spec k2 k); reflexivity.
  - cbn [dget]. destruct (String.eqb_spec a k) as [->|Hne2].
    + destruct (String.eqb_spec k2 k); [congruence|reflexivity].
    + exact IH.
Qed.
Section P.
Context (float : string -> option R).
Notation scan := (scan float).
Lemma read_entry k v x p : ~ In "="%char (chars k) -> ~ In "="%char (chars v) -> float v = Some x ->
  read_line float (text (Entry k v)) p = Ok (dput k (VNum x) p).
Proof. intros Hk Hv Hx. unfold read_line, text. rewrite (cut_entry k v Hk). cbn [fst snd]. rewrite (cut_none v Hv). cbn [fst]. rewrite Hx. reflexivity. Qed.
Lemma scan_off m ls found p rest : (forall l, In l ls -> l <> heading m) ->
  scan m (ls ++ rest) false found p = scan m rest false found p.
Proof.
  induction ls as [|l ls IH]; intro H; [reflexivity|].
  cbn [app CppbModel.scan]. destruct (String.eqb_spec l (String.append "Material :: " m)) as [E|_].
  - exfalso. exact (H l (or_introl eq_refl) E).
  - cbn [orb andb bindR]. rewrite orb_false_r. apply IH. intros l' Hl. apply H. right. exact Hl.
Qed.
Lemma note_step s : fair float (Note s) -> contains "$END$" s = false /\ contains "=" s && negb (contains "$" s) = false.
Proof.
  intros [[H1 H2]|[c [-> H2]]].
  - split; [exact (contains_first_not _ _ _ H2)|]. rewrite (contains_not _ _ H1). reflexivity.
  - split.
    + change (String.append "$ " c) with (String "$" (String " " c)).
      change (contains "$END$" (String "$" (String " " c)) = false). cbn [contains].
      change (String.prefix "$END$" (String "$" (String " " c))) with false.
      change (String.prefix "$END$" (String " " c)) with false. cbn [orb].
      exact (contains_first_not "$" "END$" c H2).
    + assert (E : contains "$" (String.append "$ " c) = true) by (apply contains_char; left; reflexivity).
      rewrite E. apply andb_false_r.
Qed.
Definition entries_of (ls : list line) (p : dict) : dict :=
  fold_left (fun p l => match l with Entry k v => match float v with Some x => dput k (VNum x) p | None => p end | Note _ => p end) ls p.
Lemma scan_on m ls : Forall (fair float) ls -> forall found p rest,
  exists found2, scan m (map text ls ++ rest) true found p = scan m rest true found2 (entries_of ls p) /\ (found = true -> found2 = true).
Proof.
  induction 1 as [|l ls Hl Hls IH]; intros found p rest; [exists found; split; [reflexivity|tauto]|].
  destruct l as [s|k v].
  - cbn [map text app CppbModel.scan]. destruct (note_step s Hl) as [H1 H2]. rewrite H1. cbn [negb orb andb].
    rewrite H2. cbn [bindR].
    destruct (IH (found || String.eqb s (String.append "Material :: " m)) p rest) as [f2 [E Hf]].
    exists f2. split; [exact E|]. intros ->. apply Hf. reflexivity.
  - destruct Hl as [K1 [K2 [V1 [V2 [x Hx]]]]].
    cbn [map app CppbModel.scan].
    assert (D : ~ In "$"%char (chars (text (Entry k v)))).
    { unfold text. rewrite !chars_app, !in_app_iff. cbn. intros [H|[[H|[H|[H|[]]]]|H]]; try discriminate H; tauto. }
    assert (Q : contains "=" (text (Entry k v)) = true).
    { apply contains_char. unfold text. rewrite !chars_app, !in_app_iff. right. left. right. left. reflexivity. }
    rewrite (contains_first_not "$" "END$" _ D), Q, (contains_not _ _ D). cbn [negb orb andb].
    rewrite (read_entry k v x p K1 V1 Hx). cbn [bindR].
    destruct (IH (found || String.eqb (text (Entry k v)) (String.append "Material :: " m)) (dput k (VNum x) p) rest) as [f2 [E Hf]].
    exists f2. split; [|intros ->; apply Hf; reflexivity].
    rewrite E. unfold entries_of. cbn [fold_left]. rewrite Hx. reflexivity.
Qed.
Lemma entries_frame k ls p : (forall l, In l ls -> ~ about k l) -> dget k (entries_of ls p) = dget k p.
Proof.
  revert p. induction ls as [|l ls IH]; intros p H; [reflexivity|]. unfold entries_of. cbn [fold_left]. fold (entries_of ls).
  assert (F : forall p, dget k (entries_of ls p) = dget k p) by (intro; apply IH; intros l' Hl; apply H; right; exact Hl).
  destruct l as [s|k2 v]; [apply F|]. destruct (float v) as [x|]; [|apply F].
  fold (entries_of ls (dput k2 (VNum x) p)). rewrite F, dget_dput. destruct (String.eqb_spec k2 k) as [->|]; [|reflexivity].
  exfalso. apply (H (Entry k v) (or_introl eq_refl)). exists v. reflexivity.
Qed.
Lemma entries_app a b p : entries_of (a ++ b) p = entries_of b (entries_of a p).
Proof. apply fold_left_app. Qed.

Lemma end_free m : contains "$END$" (heading m) = false -> negb (contains "$END$" (heading m)) = true.
Proof. intros ->. reflexivity. Qed.

(** The parameters of a material are the entries of its section, the last one of every name, and its name. *)
Theorem C185_params (m : string) (pre : list string) (body : list line) (e : string) (post : list string) :
  ~ In "$"%char (chars m) -> ~ In "="%char (chars m) ->
  (forall l, In l pre -> l <> heading m) -> (forall l, In l post -> l <> heading m) ->
  Forall (fair float) body -> contains "$END$" e = true -> e <> heading m ->
  exists p, material_params float (pre ++ heading m :: map text body ++ e :: post) m [] = Ok p
    /\ (forall k v l1 l2, body = l1 ++ Entry k v :: l2 -> (forall l, In l l2 -> ~ about k l) ->
          exists x, float v = Some x /\ dget k p = Some (VNum x))
    /\ (forall k, (forall l, In l body -> ~ about k l) -> dget k p = if String.eqb "Material" k then Some (VText m) else None).
Proof.
  intros Hm1 Hm2 Hpre Hpost Hb He Hne.
  assert (Hd : ~ In "$"%char (chars (heading m))).
  { unfold heading. rewrite chars_app, in_app_iff. intros [H|H]; [|tauto].
    cbn in H. repeat (destruct H as [H|H]; [discriminate H|]). exact H. }
  assert (Hq : ~ In "="%char (chars (heading m))).
  { unfold heading. rewrite chars_app, in_app_iff. intros [H|H]; [|tauto].
    cbn in H. repeat (destruct H as [H|H]; [discriminate H|]). exact H. }
  set (p0 := [("Material"%string, VText m)]).
  exists (entries_of body p0). split; [|split].
  - unfold material_params. fold p0. rewrite (scan_off m pre false p0 _ Hpre).
    cbn [CppbModel.scan]. fold (heading m). rewrite String.eqb_refl, (contains_first_not "$" "END$" _ Hd), (contains_not _ _ Hq).
    cbn [orb negb andb bindR].
    destruct (scan_on m body Hb true p0 (e :: post)) as [f2 [E Hf]]. rewrite E. rewrite (Hf eq_refl).
    cbn [CppbModel.scan]. rewrite He. cbn [negb]. rewrite andb_false_r. cbn [andb orb bindR].
    rewrite <- (app_nil_r post), (scan_off m post true _ [] Hpost). reflexivity.
  - intros k v l1 l2 -> Hl2.
    assert (Hv : fair float (Entry k v)) by (rewrite Forall_forall in Hb; apply Hb, in_elt).
    destruct Hv as [_ [_ [_ [_ [x Hx]]]]]. exists x. split; [exact Hx|].
    rewrite entries_app. change (Entry k v :: l2) with ([Entry k v] ++ l2). rewrite entries_app, (entries_frame k l2 _ Hl2).
    cbn. rewrite Hx, dget_dput, String.eqb_refl. reflexivity.
  - intros k Hk. rewrite (entries_frame k body p0 Hk). reflexivity.
Qed.
(** A material without a section is not found, whatever the file. *)
Theorem C185_not_found (m : string) (file : list string) (ks : list string) :
  ~ In (heading m) file -> material_params float file m ks = Err ValueError.
Proof.
  intro H. unfold material_params. rewrite <- (app_nil_r file).
  rewrite (scan_off m file false _ []); [reflexivity|]. intros l Hl E. subst l. exact (H Hl).
Qed.
Lemma select_ok ks p : forall acc d, select ks p acc = Ok d ->
  forall k, dget k d = if in_dec string_dec k ks then dget k p else dget k acc.
Proof.
  induction ks as [|a ks IH]; intros acc d H k; cbn [select] in H.
  - injection H as <-. destruct (in_dec string_dec k []); [contradiction|reflexivity].
  - destruct (dget a p) as [v|] eqn:E; [|discriminate H].
    rewrite (IH _ _ H k). destruct (in_dec string_dec k ks) as [I|N], (in_dec string_dec k (a :: ks)) as [I2|N2]; try reflexivity.
    + exfalso. apply N2. right. exact I.
    + rewrite dget_dput. destruct I2 as [->|I2]; [|contradiction]. rewrite String.eqb_refl. symmetry. exact E.
    + rewrite dget_dput. destruct (String.eqb_spec a k) as [->|]; [|reflexivity]. exfalso. apply N2. left. reflexivity.
Qed.
Lemma select_some ks p : (forall k, In k ks -> dget k p <> None) -> forall acc, exists d, select ks p acc = Ok d.
Proof.
  induction ks as [|a ks IH]; intros H acc; [exists acc; reflexivity|]. cbn [select].
  destruct (dget a p) eqn:E; [|exfalso; exact (H a (or_introl eq_refl) E)]. apply IH. intros k Hk. apply H. right. exact Hk.
Qed.
Lemma select_none ks p k : In k ks -> dget k p = None -> forall acc, select ks p acc = Err ValueError.
Proof.
  intros Hk Hn. induction ks as [|a ks IH]; intro acc; [contradiction|]. cbn [select].
  destruct Hk as [->|Hk]; [rewrite Hn; reflexivity|]. destruct (dget a p); [apply (IH Hk)|reflexivity].
Qed.
(** Named parameters come alone, and one that is missing raises. *)
Theorem C185_selected (m : string) (file : list string) (k0 : string) (ks : list string) (p : dict) :
  material_params float file m [] = Ok p ->
  ((forall k, In k (k0 :: ks) -> dget k p <> None) ->
    exists d, material_params float file m (k0 :: ks) = Ok d /\ forall k, dget k d = if in_dec string_dec k (k0 :: ks) then dget k p else None)
  /\ (forall k, In k (k0 :: ks) -> dget k p = None -> material_params float file m (k0 :: ks) = Err ValueError).
Proof.
  unfold material_params. destruct (CppbModel.scan float m file false false _) as [[p2 f]|e]; cbn [bindR fst snd]; [|discriminate].
  destruct f; [|discriminate]. intro H. injection H as <-. split.
  - intro H. destruct (select_some (k0 :: ks) p2 H []) as [d Hd]. exists d. split; [exact Hd|].
    intro k. rewrite (select_ok _ _ _ _ Hd k). reflexivity.
  - intros k Hk Hn. exact (select_none _ _ k Hk Hn []).
Qed.
End P.
Definition float_ex (s : string) : option R := if String.eqb s "2.5" then Some (5 / 2) else if String.eqb s "3" then Some 3 else None.
Example C185_params_ex :
  let file := ["$ notes"; "Material :: Si"; "E2 = 3"; "$END$"; "Material :: GaAs"; "$ Gap = 1"; "E0 = 3"; "E0 = 2.5"; "$END$"; "E0 = 3"]%string in
  (exists p, material_params float_ex file "GaAs" [] = Ok p /\ dget "E0" p = Some (VNum (5 / 2)) /\ dget "E2" p = None)
  /\ material_params float_ex file "GaAs" ["E2"%string] = Err ValueError
  /\ material_params float_ex file "Ga" [] = Err ValueError.
Proof.
  intro file. repeat split; [|reflexivity..].
  exists [("Material"%string, VText "GaAs"); ("E0"%string, VNum (5 / 2))]. repeat split; reflexivity.
Qed.
(** Without the end of a section the parameters of the materials after it are taken for those of the material. *)
Theorem C185_sections_refuted :
  exists file m p, ~ In "$END$"%string file /\ material_params float_ex file m [] = Ok p
    /\ file = [heading m; "Material :: Other"; "E0 = 3"]%string /\ m <> "Other"%string /\ dget "E0" p = Some (VNum 3).
Proof.
  exists ["Material :: Si"; "Material :: Other"; "E0 = 3"]%string, "Si"%string, [("Material"%string, VText "Si"); ("E0"%string, VNum 3)].
  repeat split; try reflexivity; [|discriminate]. intros [H|[H|[H|[]]]]; discriminate H.
Qed.

(** C177: texts of alloys. *)
From Coq Require Import Ascii String List Arith Bool Lia.
From Verif Require Import Common MatTextModel.
From Coq Require Import List.
Import ListNotations.
Open Scope string_scope.
Open Scope list_scope.

(** * Specification *)
Notation "a +++ b" := (String.append a b) (at level 60, right associativity).
Fixpoint no_braces (s : string) : Prop :=
  match s with "" => True | String a r => a <> "{"%char /\ a <> "}"%char /\ no_braces r end.
(** The element is in the name, in one place only. *)
Definition once (e s a b : string) : Prop :=
  s = a +++ e +++ b /\ forall a' b', s = a' +++ e +++ b' -> a' = a.
Definition absent (e s : string) : Prop := forall a b, s <> a +++ e +++ b.

(** * Text *)
Lemma app_nil (a : string) : a +++ "" = a.
Proof. induction a as [|x a IH]; [reflexivity|]. cbn [String.append]. rewrite IH. reflexivity. Qed.
Lemma app_assoc (a b d : string) : (a +++ b) +++ d = a +++ b +++ d.
Proof. induction a as [|x a IH]; [reflexivity|]. cbn [String.append]. rewrite IH. reflexivity. Qed.
Lemma prefix_spec p s : String.prefix p s = true <-> exists b, s = p +++ b.
Proof. revert s. induction p as [|a p IH]; intro s.
  - split; [intros _; exists s; reflexivity|intros _; destruct s; reflexivity].
  - destruct s as [|x s]; cbn [String.prefix String.append].
    + split; [intro H; discriminate H|intros [b H]; discriminate H].
    + destruct (ascii_dec a x) as [<-|Hn].
      * rewrite IH. split; intros [b H]; exists b; [rewrite H; reflexivity|inversion H; reflexivity].
      * split; [intro H; discriminate H|intros [b H]; inversion H; congruence]. Qed.
Lemma replace_skip old new p s : replace_from old new (String.length p) (p +++ s) = replace_from old new 0 s.
Proof. induction p as [|a p IH]; [reflexivity|]. cbn [String.append String.length replace_from]. exact IH. Qed.
Lemma replace_absent old new s : old <> "" -> absent old s -> replace old new s = s.
Proof. unfold replace. intro Ho. induction s as [|x s IH]; intro H; [reflexivity|]. cbn [replace_from].
  destruct (String.prefix old (String x s)) eqn:E.
  - apply prefix_spec in E. destruct E as [b E]. exfalso. exact (H "" b E).
  - rewrite IH; [reflexivity|]. intros a b Hs. apply (H (String x a) b). rewrite Hs. reflexivity. Qed.
Lemma replace_once old new s a b : old <> "" -> once old s a b -> absent old b ->
  replace old new s = a +++ new +++ b.
Proof. unfold replace. intros Ho [-> Hu] Hb. induction a as [|x a IH].
  - cbn [String.append]. destruct old as [|y old]; [contradiction|]. cbn [String.append].
    change (replace_from (String y old) new 0 (String y (old +++ b)))
      with (if String.prefix (String y old) (String y (old +++ b))
            then new +++ replace_from (String y old) new (String.length (String y old) - 1) (old +++ b)
            else String y (replace_from (String y old) new 0 (old +++ b))).
    rewrite (proj2 (prefix_spec (String y old) (String y (old +++ b)))) by (exists b; reflexivity).
    replace (String.length (String y old) - 1) with (String.length old) by (cbn [String.length]; lia).
    rewrite replace_skip. change (replace_from (String y old) new 0 b) with (replace (String y old) new b).
    rewrite replace_absent; [reflexivity|exact Ho|exact Hb].
  - cbn [String.append replace_from].
    destruct (String.prefix old (String x (a +++ old +++ b))) eqn:E.
    + apply prefix_spec in E. destruct E as [d E]. specialize (Hu "" d E). discriminate Hu.
    + rewrite IH; [reflexivity|]. intros a' b' Hs. specialize (Hu (String x a') b').
      cbn [String.append] in Hu. rewrite Hs in Hu. specialize (Hu eq_refl). inversion Hu. reflexivity. Qed.
Lemma format_lit args n s r : no_braces s ->
  format args n None (s +++ r) = (let! y := format args n None r in Ok (s +++ y)).
Proof. induction s as [|a s IH]; intro H.
  - cbn [String.append]. destruct (format args n None r); reflexivity.
  - destruct H as [H1 [H2 H3]]. cbn [String.append].
    assert (E : format args n None (String a (s +++ r)) = (let! y := format args n None (s +++ r) in Ok (String a y))).
    { cbn [format]. destruct (Ascii.eqb_spec a "{") as [->|_]; [contradiction|].
      destruct (Ascii.eqb_spec a "}") as [->|_]; [contradiction|reflexivity]. }
    rewrite E, (IH H3). destruct (format args n None r); reflexivity. Qed.
Lemma format_plain args n s : no_braces s -> format args n None s = Ok s.
Proof. intro H. rewrite <- (app_nil s) at 1. rewrite (format_lit args n s "" H). cbn [format bindR].
  rewrite app_nil. reflexivity. Qed.

(** * C177 *)
Section Alloy.
Context (s e raw dec : string).
Context (Hs : no_braces s) (He : e <> "").
Lemma no_braces_app a b : no_braces (a +++ b) -> no_braces a /\ no_braces b.
Proof. induction a as [|x a IH]; cbn [String.append no_braces]; [intro H; split; [exact I|exact H]|].
  intros [H1 [H2 H3]]. destruct (IH H3) as [H4 H5]. repeat split; assumption. Qed.
(** The element once in the name: its fraction stands behind it, in the three notations. *)
Theorem C177_alloy a b : once e s a b -> absent e b ->
  plain_string (Alloy s (Some (e, true, (raw, dec)))) = Ok (a +++ e +++ dec +++ b)
  /\ html_string (Alloy s (Some (e, true, (raw, dec)))) = Ok (a +++ e +++ "<sub>" +++ dec +++ "</sub>" +++ b)
  /\ latex_string (Alloy s (Some (e, true, (raw, dec)))) = Ok ("$\mathrm{" +++ a +++ e +++ "_{" +++ dec +++ "}" +++ b +++ "}$").
Proof. intros Ho Hb. assert (Hab : no_braces a /\ no_braces b).
  { destruct Ho as [-> _]. apply no_braces_app in Hs. destruct Hs as [Ha Hr]. apply no_braces_app in Hr. tauto. }
  destruct Hab as [Ha Hb'].
  unfold plain_string, html_string, latex_string, composed. cbn [m_element m_string].
  rewrite !(replace_once e _ s a b He Ho Hb), !(format_lit _ _ a _ Ha).
  cbn [String.append format Ascii.eqb Bool.eqb put_arg nth_error a_text a_dec String.eqb bindR].
  rewrite !(format_plain _ _ b Hb').
  cbn [bindR String.append format Ascii.eqb Bool.eqb put_arg nth_error a_text a_dec String.eqb].
  rewrite ?app_nil, ?app_assoc. cbn [String.append]. rewrite ?app_assoc. cbn [String.append]. repeat split; reflexivity. Qed.
(** With a fraction of zero the element is left out. *)
Theorem C177_zero a b : once e s a b -> absent e b ->
  plain_string (Alloy s (Some (e, false, (raw, dec)))) = Ok (a +++ b)
  /\ html_string (Alloy s (Some (e, false, (raw, dec)))) = Ok (a +++ b)
  /\ latex_string (Alloy s (Some (e, false, (raw, dec)))) = Ok ("$\mathrm{" +++ a +++ b +++ "}$").
Proof. intros Ho Hb. unfold plain_string, html_string, latex_string, composed. cbn [m_element m_string].
  rewrite !(replace_once e _ s a b He Ho Hb).
  cbn [bindR String.append format Ascii.eqb Bool.eqb put_arg nth_error a_text a_dec String.eqb].
  rewrite ?app_nil, ?app_assoc. cbn [String.append]. rewrite ?app_assoc. cbn [String.append]. repeat split; reflexivity. Qed.
(** An element that is not in the name has no effect: its fraction is lost. *)
Theorem C177_absent nonzero : absent e s ->
  plain_string (Alloy s (Some (e, nonzero, (raw, dec)))) = Ok s
  /\ html_string (Alloy s (Some (e, nonzero, (raw, dec)))) = Ok s
  /\ latex_string (Alloy s (Some (e, nonzero, (raw, dec)))) = Ok ("$\mathrm{" +++ s +++ "}$").
Proof. intro H. unfold plain_string, html_string, latex_string, composed. cbn [m_element m_string].
  rewrite !(replace_absent e _ s He H), !(format_plain _ _ s Hs).
  destruct nonzero; cbn [bindR String.append format Ascii.eqb Bool.eqb put_arg nth_error a_text a_dec String.eqb];
    rewrite !app_nil; repeat split; reflexivity. Qed.
End Alloy.
(** A material without composition is its name. *)
Theorem C177_simple s :
  plain_string (Alloy s None) = Ok s /\ html_string (Alloy s None) = Ok s
  /\ latex_string (Alloy s None) = Ok ("$\mathrm{" +++ s +++ "}$").
Proof. unfold plain_string, html_string, latex_string, composed. cbn [m_element m_string].
  cbn [bindR String.append format Ascii.eqb Bool.eqb put_arg nth_error a_text a_dec String.eqb].
  rewrite !app_nil. repeat split; reflexivity. Qed.
(** The silicon of SOPRA called SiPOLY has the fraction Poly: its texts are the same for every
    fraction. *)
Theorem C177_fraction_refuted : exists s e, no_braces s /\ e <> "" /\ forall raw dec,
  plain_string (Alloy s (Some (e, true, (raw, dec)))) = Ok s /\ html_string (Alloy s (Some (e, true, (raw, dec)))) = Ok s.
Proof. exists "SiPOLY", "Poly". split; [cbn; repeat split; discriminate|]. split; [discriminate|].
  intros raw dec. split; reflexivity. Qed.
(** An element that is in the name twice (in no name of the databases): no text. *)
Theorem C177_twice_refuted : exists s e raw dec, no_braces s /\ e <> "" /\ ~ absent e s
  /\ plain_string (Alloy s (Some (e, true, (raw, dec)))) = Err IndexError
  /\ html_string (Alloy s (Some (e, true, (raw, dec)))) = Err IndexError
  /\ latex_string (Alloy s (Some (e, true, (raw, dec)))) = Err IndexError.
Proof. exists "InSbS", "S", "0.25", "0.250". split; [cbn; repeat split; discriminate|]. split; [discriminate|].
  split; [intro H; exact (H "In" "bS" eq_refl)|]. repeat split; reflexivity. Qed.

(** * Cases *)
Lemma absent_dec e s : (fix go s := negb (String.prefix e s) && match s with "" => true | String _ r => go r end) s = true -> absent e s.
Proof. induction s as [|x s IH]; intros H a b Hs; apply andb_true_iff in H; destruct H as [H1 H2]; apply negb_true_iff in H1.
  - destruct a; [|discriminate Hs]. cbn [String.append] in Hs.
    assert (String.prefix e "" = true) by (apply prefix_spec; exists b; exact Hs). congruence.
  - destruct a as [|y a].
    + assert (String.prefix e (String x s) = true) by (apply prefix_spec; exists b; exact Hs). congruence.
    + cbn [String.append] in Hs. inversion Hs. exact (IH H2 a b H3). Qed.
Example ex_C177_alloy : once "Ga" "InGaAs" "In" "As" /\ absent "Ga" "As" /\ no_braces "InGaAs"
  /\ latex_string (Alloy "InGaAs" (Some ("Ga", true, ("0.47", "0.470")))) = Ok "$\mathrm{InGa_{0.470}As}$"
  /\ html_string (Alloy "InGaAs" (Some ("Ga", true, ("0.47", "0.470")))) = Ok "InGa<sub>0.470</sub>As"
  /\ plain_string (Alloy "InGaAs" (Some ("Ga", false, ("0.0", "0.000")))) = Ok "InAs".
Proof. split; [|split; [apply absent_dec; reflexivity|split; [cbn; repeat split; discriminate|repeat split; reflexivity]]].
  split; [reflexivity|]. intros a b H. destruct a as [|x [|y [|z a]]]; cbn [String.append] in H; try discriminate H.
  - inversion H. reflexivity.
  - exfalso. inversion H as [[H1 H2 H3 H4]]. clear H H1 H2 H3. revert H4. apply (absent_dec "Ga" "aAs"). reflexivity. Qed.
Example ex_C177_absent : absent "Al" "InGaAs".
Proof. apply absent_dec. reflexivity. Qed.
(** Places of an element in a name; all names of the databases but SiPOLY have one. *)
Fixpoint places (e s : string) : nat :=
  (if String.prefix e s then 1 else 0) + match s with "" => 0 | String _ r => places e r end.
Lemma places_zero e s : places e s = 0 -> absent e s.
Proof. induction s as [|x s IH]; intros H a b Hs; cbn [places] in H.
  - destruct (String.prefix e "") eqn:E; [discriminate H|]. destruct a; [|discriminate Hs].
    assert (String.prefix e "" = true) by (apply prefix_spec; exists b; exact Hs). congruence.
  - destruct (String.prefix e (String x s)) eqn:E; [discriminate H|]. destruct a as [|y a].
    + assert (String.prefix e (String x s) = true) by (apply prefix_spec; exists b; exact Hs). congruence.
    + inversion Hs. exact (IH H a b H2). Qed.
Lemma absent_tail e b d : absent e (b +++ d) -> absent e d.
Proof. intros H a f ->. apply (H (b +++ a) f). rewrite app_assoc. reflexivity. Qed.
Lemma places_one e s : e <> "" -> places e s = 1 -> exists a b, once e s a b /\ absent e b.
Proof. intro He. induction s as [|x s IH]; intro H; cbn [places] in H.
  - destruct e as [|y e]; [contradiction|discriminate H].
  - destruct (String.prefix e (String x s)) eqn:E.
    + assert (Hz : absent e s) by (apply places_zero; lia). apply prefix_spec in E. destruct E as [b E].
      exists "", b. split; [split; [exact E|]|].
      * intros [|y a'] b' Hs; [reflexivity|]. inversion Hs as [[H1 H2]]. exfalso. exact (Hz a' b' H2).
      * destruct e as [|y e]; [contradiction|]. inversion E as [[H1 H2]]. rewrite H2 in Hz. exact (absent_tail _ e b Hz).
    + destruct (IH H) as [a [b [[H1 H2] H3]]]. exists (String x a), b. split; [split|exact H3].
      * rewrite H1. reflexivity.
      * intros [|y a'] b' Hs.
        -- assert (String.prefix e (String x s) = true) by (apply prefix_spec; exists b'; exact Hs). congruence.
        -- inversion Hs as [[H4 H5]]. rewrite (H2 a' b' H5). reflexivity. Qed.
(** material_data/SOPRA_DB/compounds.txt and material_data/Vurgaftman/ternaries.txt, without SiPOLY. *)
Definition database : list (string * string) :=
  [("AlGaInP", "Al"); ("AlGaAs", "Al"); ("HgCdTe", "Cd"); ("InGaSb", "Ga"); ("ReSiGe", "Ge"); ("ReInGaAs", "In");
   ("SiGe", "Si"); ("StInGaAs", "In"); ("SiON", "N"); ("StSiGe", "Ge"); ("ZnCdTe", "Cd"); ("ZnSeTe", "Te");
   ("AlInAs", "Al"); ("GaPSb", "P"); ("GaInAs", "In"); ("InGaAs", "In"); ("GaInSb", "In"); ("GaInP", "In");
   ("GaAsN_zinc_blende", "N"); ("AlGaP", "Ga"); ("AlPSb", "Sb"); ("AlGaSb", "Al"); ("AlAsP", "As"); ("AlInP", "Al");
   ("InAsP", "As"); ("AlGaN", "Ga"); ("GaAsSb", "Sb"); ("GaInN", "In"); ("GaAsP", "P"); ("AlInSb", "In");
   ("InAsSb", "Sb"); ("InPSb", "Sb"); ("AlAsSb", "Sb")].
Lemma database_once : forallb (fun p => Nat.eqb (places (snd p) (fst p)) 1) database = true.
Proof. vm_compute. reflexivity. Qed.
Theorem C177_database s e : In (s, e) database -> exists a b, once e s a b /\ absent e b.
Proof. intro H. assert (G := proj1 (forallb_forall _ _) database_once (s, e) H). cbn [fst snd] in G.
  apply Nat.eqb_eq in G. apply (places_one e s); [|exact G].
  intros ->. cbn [database In] in H. repeat destruct H as [H|H]; try discriminate H. destruct H. Qed.

(** C174: the SMARTS input file. The specification is the table of the cards of SMARTS, each with
    the condition under which it is in the file. *)
From Coq Require Import ZArith QArith Ascii String List Arith Bool Lia.
From Verif Require Import Common SmartsModel.
From Coq Require Import List.
Import ListNotations.
Open Scope string_scope.
Open Scope list_scope.

(** * Specification *)
(** A piece of a card: a text or the value of an option. *)
Inductive tok : Type := L : string -> tok | F : string -> tok.
(** When a card is there. *)
Inductive cond : Type :=
| Always : cond
| Is : string -> Z -> cond
| AtLeast : string -> Z -> cond
| Sel : string -> Z -> Z -> cond
| Text : string -> string -> cond
| Both : cond -> cond -> cond
| Either : cond -> cond -> cond.
Definition number (v : option sval) : option Q :=
  match v with
  | Some (Val _ (Int z)) => Some (inject_Z z)
  | Some (Val _ (Flt q)) => Some q
  | _ => None
  end.
Definition integer (v : option sval) : option Z :=
  match v with Some (Val _ (Int z)) => Some z | _ => None end.
(** [Sel k n i]: alternative [i] of [n], also by its negative number. *)
Fixpoint holds (o : sdict) (cd : cond) : bool :=
  match cd with
  | Always => true
  | Is k z => match number (get o k) with Some q => Qeq_bool q (inject_Z z) | None => false end
  | AtLeast k z => match number (get o k) with Some q => Qle_bool (inject_Z z) q | None => false end
  | Sel k n i => match integer (get o k) with Some x => (x =? i)%Z || (x =? i - n)%Z | None => false end
  | Text k t => match get o k with Some v => String.eqb (v_txt v) t | None => false end
  | Both a b => holds o a && holds o b
  | Either a b => holds o a || holds o b
  end.
Definition gap := L " ".
Definition entry : Type := cond * list tok.
(** A card with the values of some options, and its name. *)
Fixpoint values (l : list string) : list tok :=
  match l with [] => [] | [k] => [F k] | k :: r => F k :: gap :: values r end.
Definition line (l : list string) (name : string) : list tok := values l ++ [L (" !Card " ++ name)%string].
Definition quoted (k name : string) : list tok := [L "'"; F k; L ("' !Card " ++ name)%string].

Definition t2 : list entry :=
  [(Always, quoted "COMNT" "1"); (Always, line ["ISPR"] "2");
   (Sel "ISPR" 3 0, line ["SPR"] "2a");
   (Sel "ISPR" 3 1, line ["SPR"; "ALTIT"; "HEIGHT"] "2a");
   (Sel "ISPR" 3 2, line ["LATIT"; "ALTIT"; "HEIGHT"] "2a")].
Definition t3 : list entry :=
  [(Always, line ["IATMOS"] "3");
   (Sel "IATMOS" 2 0, [F "TAIR"; gap; F "RH"; L " '"; F "SEASON"; L "' "; F "TDAY"; L " !Card 3a"]);
   (Sel "IATMOS" 2 1, quoted "ATMOS" "3a")].
Definition t4 : list entry := [(Always, line ["IH2O"] "4"); (Is "IH2O" 0, line ["W"] "4a")].
Definition t5 : list entry := [(Always, line ["IO3"] "5"); (Is "IO3" 0, line ["IALT"; "AbO3"] "5a")].
Definition t6 : list entry :=
  [(Always, line ["IGAS"] "6"); (Is "IGAS" 0, line ["ILOAD"] "6a");
   (Both (Is "IGAS" 0) (Is "ILOAD" 0),
    line ["ApCH2O"; "ApCH4"; "ApCO"; "ApHNO2"; "ApHNO3"; "ApNO"; "ApNO2"; "ApNO3"; "ApO3"; "ApSO2"] "6b")].
Definition t8 : list entry :=
  [(Always, line ["qCO2"] "7"); (Always, line ["ISPCTR"] "7a"); (Always, quoted "AEROS" "8");
   (Text "AEROS" "USER", line ["ALPHA1"; "ALPHA2"; "OMEGL"; "GG"] "8a")].
Definition t9 : list entry :=
  [(Always, line ["ITURB"] "9"); (Sel "ITURB" 6 0, line ["TAU5"] "9a"); (Sel "ITURB" 6 1, line ["BETA"] "9a");
   (Sel "ITURB" 6 2, line ["BCHUEP"] "9a"); (Sel "ITURB" 6 3, line ["RANGE"] "9a");
   (Sel "ITURB" 6 4, line ["VISI"] "9a"); (Sel "ITURB" 6 5, line ["TAU550"] "9a")].
Definition t10 : list entry :=
  [(Always, line ["IALBDX"] "10"); (Is "IALBDX" (-1), line ["RHOX"] "10a")].
Definition t10b : list entry :=
  [(Always, line ["ITILT"] "10b"); (Is "ITILT" 1, line ["IALBDG"; "TILT"; "WAZIM"] "10c");
   (Both (Is "ITILT" 1) (Is "IALBDG" 1), line ["RHOG"] "10d")].
Definition t12 : list entry :=
  [(Always, line ["WLMN"; "WLMX"; "SUNCOR"; "SOLARC"] "11"); (Always, line ["IPRT"] "12");
   (AtLeast "IPRT" 1, line ["WPMN"; "WPMX"; "INTVL"] "12a");
   (Either (Is "IPRT" 2) (Is "IPRT" 3), line ["IOTOT"] "12b");
   (Either (Is "IPRT" 2) (Is "IPRT" 3), line ["IOUT"] "12c")].
Definition t13 : list entry :=
  [(Always, line ["ICIRC"] "13"); (Is "ICIRC" 1, line ["SLOPE"; "APERT"; "LIMIT"] "13a")].
Definition t14 : list entry :=
  [(Always, line ["ISCAN"] "14"); (Is "ISCAN" 1, line ["IFILT"; "WV1"; "WV2"; "STEP"; "FWHM"] "14a")].
Definition t17 : list entry :=
  [(Always, line ["ILLUM"] "15"); (Always, line ["IUV"] "16"); (Always, line ["IMASS"] "17");
   (Sel "IMASS" 5 0, line ["ZENIT"; "AZIM"] "17a"); (Sel "IMASS" 5 1, line ["ELEV"; "AZIM"] "17a");
   (Sel "IMASS" 5 2, line ["AMASS"] "17a");
   (Sel "IMASS" 5 3, line ["YEAR"; "MONTH"; "DAY"; "HOUR"; "LATIT"; "LONGIT"; "ZONE"] "17a");
   (Sel "IMASS" 5 4, line ["MONTH"; "LATIT"; "DSTEP"] "17a")].
Definition table : list entry :=
  t2 ++ t3 ++ t4 ++ t5 ++ t6 ++ t8 ++ t9 ++ t10 ++ t10b ++ t12 ++ t13 ++ t14 ++ t17.

(** The cards in the file, the options they need, and the file. *)
Definition present (o : sdict) (t : list entry) : list (list tok) :=
  map snd (filter (fun e => holds o (fst e)) t).
Fixpoint names (l : list tok) : list string :=
  match l with [] => [] | L _ :: r => names r | F k :: r => k :: names r end.
Definition needed (o : sdict) : list string := flat_map names (present o table).
Definition given (o : sdict) (k : string) : Prop := get o k <> None.
Fixpoint written (o : sdict) (l : list tok) : string :=
  match l with
  | [] => ""
  | L s :: r => (s ++ written o r)%string
  | F k :: r => ((match get o k with Some v => v_txt v | None => "" end) ++ written o r)%string
  end.
Fixpoint file (o : sdict) (l : list (list tok)) : string :=
  match l with [] => "" | cd :: r => (written o cd ++ newline ++ file o r)%string end.
(** The flags that choose between alternatives. *)
Definition selects (o : sdict) (k : string) (n : Z) : Prop :=
  exists x, integer (get o k) = Some x /\ (- n <= x < n)%Z.
Definition flags_ok (o : sdict) : Prop :=
  selects o "ISPR" 3 /\ selects o "IATMOS" 2 /\ selects o "ITURB" 6 /\ selects o "IMASS" 5
  /\ number (get o "IPRT") <> None.

(** * The schema as the texts of the cards *)
Fixpoint template (l : list tok) : string :=
  match l with
  | [] => ""
  | L s :: r => (s ++ template r)%string
  | F k :: r => ("{" ++ k ++ "}" ++ template r)%string
  end.
Lemma eq_int x z : Qeq_bool (inject_Z x) (inject_Z z) = Z.eqb x z.
Proof. unfold Qeq_bool, inject_Z. cbn [Qnum Qden]. rewrite !Z.mul_1_r.
  destruct (Z.eqb_spec x z) as [->|Hn].
  - apply Zeq_is_eq_bool. reflexivity.
  - apply not_true_is_false. intro Ht. apply Zeq_is_eq_bool in Ht. contradiction. Qed.
Lemma le_int x z : Qle_bool (inject_Z z) (inject_Z x) = Z.leb z x.
Proof. unfold Qle_bool, inject_Z. cbn [Qnum Qden]. rewrite !Z.mul_1_r. reflexivity. Qed.
(** What a block gives. *)
Definition gives (f : sdict -> res (list string)) (t : list entry) (ok : sdict -> Prop) : Prop :=
  forall o, (ok o -> f o = Ok (map template (present o t)))
            /\ (forall l, f o = Ok l -> ok o).
Lemma is_given o k z : given o k -> equals o k z = Ok (holds o (Is k z)).
Proof. unfold given, equals, item. cbn [holds]. destruct (get o k) as [[s n]|]; [intros _|intro H; contradiction].
  cbn [bindR v_num number]. destruct n as [x|q|]; cbn [number]; rewrite ?eq_int; reflexivity. Qed.
Lemma equals_given o k z b : equals o k z = Ok b -> given o k.
Proof. unfold given, equals, item. destruct (get o k); [discriminate|intro H; discriminate H]. Qed.
Lemma when_given o k z l : given o k -> when o k z l = Ok (if holds o (Is k z) then l else []).
Proof. intro H. unfold when. rewrite (is_given o k z H). reflexivity. Qed.
Lemma when_ok o k z l r : when o k z l = Ok r -> given o k.
Proof. unfold when. destruct (equals o k z) eqn:E; [intros _; exact (equals_given _ _ _ _ E)|intro H; discriminate H]. Qed.
Lemma pick_ok o k l s : pick o k l = Ok s -> selects o k (Z.of_nat (length l)).
Proof. unfold pick, selects, item. destruct (get o k) as [[t n]|]; [|intro H; discriminate H].
  cbn [bindR v_num]. destruct n as [x|q|]; [|intro H; discriminate H|intro H; discriminate H].
  cbn [integer]. intro H. exists x. split; [reflexivity|].
  destruct (Z.ltb_spec x 0) as [Hx|Hx].
  - destruct (Z.ltb_spec (x + Z.of_nat (length l)) 0); [discriminate H|]. lia.
  - destruct (Z.ltb_spec x 0); [lia|]. destruct (nth_error l (Z.to_nat x)) eqn:E; [|discriminate H].
    assert (Hl : (Z.to_nat x < length l)%nat) by (apply nth_error_Some; rewrite E; discriminate). lia. Qed.
Lemma pick_at o k l x : integer (get o k) = Some x -> (- Z.of_nat (length l) <= x < Z.of_nat (length l))%Z ->
  pick o k l = Ok (nth (Z.to_nat (if Z.ltb x 0 then x + Z.of_nat (length l) else x)) l "").
Proof. unfold pick, item. destruct (get o k) as [[t n]|]; [|intro H; discriminate H].
  destruct n as [y|q|]; intro H; try discriminate H. cbn [integer] in H. injection H as ->. intro Hx.
  cbn [bindR v_num]. destruct (Z.ltb_spec x 0) as [Hn|Hn].
  - destruct (Z.ltb_spec (x + Z.of_nat (length l)) 0); [lia|].
    rewrite (nth_error_nth' l "") by lia. reflexivity.
  - destruct (Z.ltb_spec x 0); [lia|]. rewrite (nth_error_nth' l "") by lia. reflexivity. Qed.

Ltac among x n :=
  match n with
  | O => idtac
  | S ?m => destruct (Z.eq_dec x (Z.of_nat m)) as [->|?];
            [|destruct (Z.eq_dec x (- Z.of_nat n)) as [->|?]; [|among x m]]
  end.
Ltac picked n :=
  let o := fresh "o" in let x := fresh "x" in let Hx := fresh in let Hr := fresh in
  let l := fresh in let Hl := fresh in let E := fresh in
  intro o; split;
  [ intros [x [Hx Hr]]; unfold present;
    match goal with |- ?f o = Ok (map _ (map _ (filter _ ?t))) => unfold f, t end;
    cbn [filter map fst snd holds]; rewrite ?Hx;
    rewrite (pick_at o _ _ x Hx) by exact Hr;
    among x n; [..|exfalso; cbn in *; lia]; vm_compute; reflexivity
  | intros l Hl; match type of Hl with ?f o = _ => unfold f in Hl end;
    match type of Hl with bindR ?p _ = _ => destruct p eqn:E; [|discriminate Hl] end;
    exact (pick_ok _ _ _ _ E) ].
Lemma gives2 : gives seg2 t2 (fun o => selects o "ISPR" 3).
Proof. picked 3%nat. Qed.
Lemma gives3 : gives seg3 t3 (fun o => selects o "IATMOS" 2).
Proof. picked 2%nat. Qed.
Lemma gives9 : gives seg9 t9 (fun o => selects o "ITURB" 6).
Proof. picked 6%nat. Qed.
Lemma gives17 : gives seg17 t17 (fun o => selects o "IMASS" 5).
Proof. picked 5%nat. Qed.

Ltac whened :=
  let o := fresh "o" in let Hg := fresh in let l := fresh in let Hl := fresh in let E := fresh in
  intro o; split;
  [ intro Hg; unfold present;
    match goal with |- ?f o = Ok (map _ (map _ (filter _ ?t))) => unfold f, t end;
    rewrite (when_given o _ _ _ Hg);
    match goal with |- context [holds o (Is ?k ?z)] => let b := fresh in let Eb := fresh in
      remember (holds o (Is k z)) as b eqn:Eb; cbn [filter map fst snd]; change (holds o Always) with true;
      rewrite <- ?Eb; clear Eb; destruct b end;
    vm_compute; reflexivity
  | intros l Hl; match type of Hl with ?f o = _ => unfold f in Hl end;
    match type of Hl with bindR ?p _ = _ => destruct p eqn:E; [|discriminate Hl] end;
    exact (when_ok _ _ _ _ _ E) ].
Lemma gives4 : gives seg4 t4 (fun o => given o "IH2O").
Proof. whened. Qed.
Lemma gives5 : gives seg5 t5 (fun o => given o "IO3").
Proof. whened. Qed.
Lemma gives10 : gives seg10 t10 (fun o => given o "IALBDX").
Proof. whened. Qed.
Lemma gives13 : gives seg13 t13 (fun o => given o "ICIRC").
Proof. whened. Qed.
Lemma gives14 : gives seg14 t14 (fun o => given o "ISCAN").
Proof. whened. Qed.
Ltac nested k z k' z' :=
  let o := fresh "o" in let H1 := fresh in let H2 := fresh in let l := fresh in let Hl := fresh in let E := fresh in
  let Eb := fresh in
  intro o; split;
  [ intros [H1 H2]; unfold present;
    match goal with |- ?f o = Ok (map _ (map _ (filter _ ?t))) => unfold f, t end;
    rewrite (is_given o _ _ H1); cbn [filter map fst snd bindR];
    change (holds o (Both (Is k z) (Is k' z'))) with (holds o (Is k z) && holds o (Is k' z'));
    change (holds o Always) with true;
    destruct (holds o (Is k z)) eqn:Eb;
    [ rewrite (when_given o _ _ _ (H2 eq_refl)); destruct (holds o (Is k' z')); vm_compute; reflexivity
    | vm_compute; reflexivity ]
  | intros l Hl; match type of Hl with ?f o = _ => unfold f in Hl end;
    match type of Hl with bindR ?p _ = _ => destruct p eqn:E; [|discriminate Hl] end;
    split; [exact (equals_given _ _ _ _ E)|];
    intro Eb; rewrite (is_given o _ _ (equals_given _ _ _ _ E)) in E; rewrite Eb in E; injection E as <-;
    cbn [bindR] in Hl;
    match type of Hl with context [when ?a ?b ?c ?d] => destruct (when a b c d) eqn:E; [|discriminate Hl] end;
    exact (when_ok _ _ _ _ _ E) ].
Lemma gives6 : gives seg6 t6 (fun o => given o "IGAS" /\ (holds o (Is "IGAS" 0) = true -> given o "ILOAD")).
Proof. nested "IGAS" 0%Z "ILOAD" 0%Z. Qed.
Lemma gives10b : gives seg10b t10b (fun o => given o "ITILT" /\ (holds o (Is "ITILT" 1) = true -> given o "IALBDG")).
Proof. nested "ITILT" 1%Z "IALBDG" 1%Z. Qed.
Lemma gives8 : gives seg8 t8 (fun o => given o "AEROS").
Proof. intro o. unfold seg8, item, given, present. cbn [map filter t8 fst snd holds]. split.
  - intro H. destruct (get o "AEROS") as [v|]; [|contradiction]. cbn [bindR].
    destruct (String.eqb (v_txt v) "USER"); vm_compute; reflexivity.
  - intros l H. destruct (get o "AEROS"); [discriminate|discriminate H]. Qed.
Lemma gives12 : gives seg12 t12 (fun o => number (get o "IPRT") <> None).
Proof. intro o. unfold seg12, at_least, equals, item, present. cbn [map filter t12 fst snd holds]. split.
  - intro H. destruct (get o "IPRT") as [[s n]|]; [|contradiction]. cbn [bindR v_num number] in *.
    destruct n as [x|q|]; [| |contradiction].
    + cbn [bindR]. rewrite !eq_int, le_int.
      destruct (Z.leb_spec 1 x) as [Hx|Hx].
      * destruct (Z.eqb x 2), (Z.eqb x 3); vm_compute; reflexivity.
      * destruct (Z.eqb_spec x 2); [lia|]. destruct (Z.eqb_spec x 3); [lia|]. vm_compute; reflexivity.
    + cbn [bindR]. destruct (Qle_bool (inject_Z 1) q) eqn:Hq.
      * destruct (Qeq_bool q (inject_Z 2)), (Qeq_bool q (inject_Z 3)); vm_compute; reflexivity.
      * assert (H2 : Qeq_bool q (inject_Z 2) = false).
        { apply not_true_is_false. intro Ht. apply Qeq_bool_iff in Ht.
          assert (Qle_bool (inject_Z 1) q = true) by (apply Qle_bool_iff; rewrite Ht; apply Qle_bool_iff; reflexivity).
          congruence. }
        assert (H3 : Qeq_bool q (inject_Z 3) = false).
        { apply not_true_is_false. intro Ht. apply Qeq_bool_iff in Ht.
          assert (Qle_bool (inject_Z 1) q = true) by (apply Qle_bool_iff; rewrite Ht; apply Qle_bool_iff; reflexivity).
          congruence. }
        rewrite H2, H3. vm_compute; reflexivity.
  - intros l H. destruct (get o "IPRT") as [[s n]|]; [|discriminate H]. cbn [bindR v_num number] in *.
    destruct n as [x|q|]; [discriminate|discriminate|discriminate H]. Qed.

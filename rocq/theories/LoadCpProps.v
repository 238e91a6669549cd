(** Property C191 about loading the data of alloys and the files of the picker. *)
From Coq Require Import Reals Ascii String List Bool Arith Lra Lia DecimalString.
From Verif Require Import Common NumModel TmmModel NpModel CritModel PickModel PickProps LoadCpModel.
From Coq Require Import List.
Import ListNotations.
Open Scope R_scope.
Open Scope list_scope.

(** * The number in a name *)
Fixpoint all_chars (P : ascii -> Prop) (s : string) : Prop :=
  match s with EmptyString => True | String a r => P a /\ all_chars P r end.
Definition digits_only (s : string) : Prop := all_chars (fun a => is_digit a = true) s.
(** A number without sign: digits, or digits, a point and digits. *)
Definition number (s : string) : Prop :=
  (s <> ""%string /\ digits_only s) \/
  exists d e, s = (d ++ String "." e)%string /\ d <> ""%string /\ digits_only d /\ e <> ""%string /\ digits_only e.
(** What may stand before it: no digit, and no sign or point at the end. *)
Fixpoint before (s : string) : Prop :=
  match s with
  | EmptyString => True
  | String a EmptyString => is_digit a = false /\ is_sign a = false /\ a <> "."%char
  | String a r => is_digit a = false /\ before r
  end.
(** What may stand behind it: no digit, and no point with a digit. *)
Definition behind (s : string) : Prop :=
  match s with
  | EmptyString => True
  | String a r => is_digit a = false /\ (a = "."%char -> match r with EmptyString => True | String b _ => is_digit b = false end)
  end.
Lemma digits_app d r : digits_only d -> digits (d ++ r) = ((d ++ fst (digits r))%string, snd (digits r)).
Proof.
  induction d as [|a d IH]; cbn; intros H; [now destruct (digits r)|]. destruct H as [H1 H2]. rewrite H1, (IH H2). reflexivity.
Qed.
Lemma digits_none s : match s with EmptyString => True | String a _ => is_digit a = false end -> digits s = (""%string, s).
Proof. destruct s as [|a s]; cbn; [easy|]. intros ->. reflexivity. Qed.
Lemma app_nil_r_s s : (s ++ "")%string = s.
Proof. induction s as [|a s IH]; cbn; [easy|]. now rewrite IH. Qed.
Lemma digit_no_sign a : is_digit a = true -> is_sign a = false /\ Ascii.eqb a "." = false.
Proof.
  unfold is_digit, is_sign. intros H. apply andb_true_iff in H. destruct H as [H1 H2]. apply Nat.leb_le in H1, H2.
  split; [apply orb_false_iff; split|]; apply Ascii.eqb_neq; intros ->; cbn in H1, H2; lia.
Qed.
Lemma here_number num post : number num -> behind post -> match_here (num ++ post) = Some num.
Proof.
  intros N B.
  assert (D : forall d r, d <> ""%string -> digits_only d ->
    match_here (d ++ r) = let t := snd (digits r) in let d' := (d ++ fst (digits r))%string in
      match t with
      | String a u => if Ascii.eqb a "."%char then match fst (digits u) with EmptyString => Some d' | d2 => Some (d' ++ String a d2)%string end else Some d'
      | EmptyString => Some d' end).
  { intros [|a d] r Nd Hd; [easy|]. cbn zeta. unfold match_here. assert (Ha : is_digit a = true) by apply Hd.
    destruct (digit_no_sign a Ha) as [Hs _]. cbn [String.append]. rewrite Hs. change (String a (d ++ r)) with (String a d ++ r)%string.
    rewrite (digits_app _ r Hd). cbn [String.append]. reflexivity. }
  destruct N as [[Nn Hn]|(d & e & -> & Nd & Hd & Ne & He)].
  - rewrite (D num post Nn Hn). destruct post as [|a r]; cbn [behind] in B; [cbn; now rewrite app_nil_r_s|]. destruct B as [B1 B2].
    rewrite (digits_none (String a r) B1). cbn [fst snd]. rewrite app_nil_r_s. cbn zeta.
    destruct (Ascii.eqb_spec a ".") as [E|E]; [|reflexivity]. rewrite (digits_none r (B2 E)). reflexivity.
  - assert (Q : forall x y z, ((x ++ y) ++ z = x ++ (y ++ z))%string) by (induction x as [|? x IHx]; intros; cbn; [easy|now rewrite IHx]).
    rewrite Q. rewrite (D d _ Nd Hd). cbn [String.append]. rewrite (digits_none (String "." (e ++ post)) eq_refl). cbn [fst snd]. cbn zeta.
    rewrite app_nil_r_s. cbn [Ascii.eqb Bool.eqb]. rewrite (digits_app e post He).
    assert (P0 : fst (digits post) = ""%string) by (destruct post as [|a r]; [easy|]; destruct B as [B1 _]; now rewrite (digits_none (String a r) B1)).
    cbn [fst]. rewrite P0, app_nil_r_s. destruct e; [easy|reflexivity].
Qed.
Lemma number_first num : number num -> exists a r, num = String a r /\ is_digit a = true.
Proof.
  intros [[N H]|(d & e & -> & N & H & _)].
  - destruct num as [|a r]; [easy|]. exists a, r. split; [reflexivity|apply H].
  - destruct d as [|a d]; [easy|]. exists a, (d ++ String "." e)%string. split; [reflexivity|apply H].
Qed.
(** A name with one number after its letters gives that number. *)
Theorem C191_guess : forall pre num post, before pre -> number num -> behind post ->
  guess_fraction (pre ++ num ++ post) = Some num.
Proof.
  intros pre num post B N P. induction pre as [|a pre IH].
  - cbn [String.append]. destruct (number_first num N) as (a & r & E & _).
    pose proof (here_number num post N P) as H. destruct (num ++ post)%string; cbn [guess_fraction]; rewrite H; reflexivity.
  - assert (A : is_digit a = false) by (destruct pre; apply B).
    assert (B' : before pre) by (destruct pre; [easy|apply B]).
    cbn [String.append guess_fraction]. rewrite (IH B').
    assert (M : match_here (String a (pre ++ num ++ post)) = None); [|now rewrite M].
    unfold match_here. destruct (is_sign a) eqn:S0.
    + destruct pre as [|b pre]; [destruct B as (_ & B & _); congruence|]. assert (Bd : is_digit b = false) by (destruct pre; apply B').
      cbn [String.append]. rewrite (digits_none (String b _) Bd). destruct (Ascii.eqb_spec b ".") as [E|E]; [|reflexivity].
      destruct pre as [|b2 pre]; [destruct B' as (_ & _ & B'); congruence|]. assert (Bd2 : is_digit b2 = false) by (destruct B' as [_ B']; destruct pre; apply B').
      cbn [String.append]. rewrite (digits_none (String b2 _) Bd2). reflexivity.
    + rewrite (digits_none (String a _) A). destruct (Ascii.eqb_spec a ".") as [E|E]; [|reflexivity].
      destruct pre as [|b pre]; [destruct B as (_ & _ & B); congruence|]. assert (Bd : is_digit b = false) by (destruct pre; apply B').
      cbn [String.append]. rewrite (digits_none (String b _) Bd). reflexivity.
Qed.
Example C191_guess_ex : before "AlGaAs_" /\ number "0.37" /\ behind ".txt" /\ guess_fraction "AlGaAs_0.37.txt" = Some "0.37"%string.
Proof.
  split; [cbn; repeat split; discriminate|]. split; [|split; [cbn; split; [easy|intros _; reflexivity]|reflexivity]].
  right. exists "0"%string, "37"%string. repeat split; discriminate.
Qed.
(** A dash before the number makes the composition negative, and digits of the name of the
    material are taken for it. *)
Theorem C191_guess_refuted : guess_fraction "AlGaAs-0.37.txt" = Some "-0.37"%string /\ guess_fraction "Si3N4_0.37.txt" = Some "3"%string.
Proof. split; reflexivity. Qed.

(** * Loading *)
Lemma mapRR_all {A B} (f : A -> res B) l : (forall x, In x l -> exists y, f x = Ok y) ->
  exists ys, mapRR f l = Ok ys /\ forall y, In y ys <-> exists x, In x l /\ f x = Ok y.
Proof.
  induction l as [|x l IH]; intros H.
  - exists []. split; [reflexivity|]. intros y. split; [intros []|intros (? & [] & _)].
  - destruct (H x (or_introl eq_refl)) as [y0 E]. destruct IH as (ys & E2 & I); [intros z Hz; apply H; now right|].
    exists (y0 :: ys). cbn [mapRR]. rewrite E. cbn [bindR]. rewrite E2. split; [reflexivity|]. intros y. cbn [In]. rewrite I. split.
    + intros [<-|(z & Hz & Ez)]; [exists x; split; [now left|exact E]|exists z; split; [now right|exact Ez]].
    + intros (z & [<-|Hz] & Ez); [left; congruence|right; now exists z].
Qed.
Definition space (a : ascii) : Prop := a = " "%char \/ (9 <= nat_of_ascii a <= 13)%nat.
(** A text without spaces. *)
Definition word (s : string) : Prop := s <> ""%string /\ all_chars (fun a => ~ space a) s.
Lemma app_cons_s w a r : ((w ++ String a "") ++ r = w ++ String a r)%string.
Proof. induction w as [|b w IH]; cbn; [easy|]. now rewrite IH. Qed.
Lemma words_app s : forall w r, all_chars (fun a => ~ space a) s -> words w (s ++ r) = words (w ++ s) r.
Proof.
  induction s as [|a s IH]; intros w r H; cbn [String.append]; [now rewrite app_nil_r_s|]. destruct H as [H1 H2].
  cbn [words]. assert (T : (Ascii.eqb a " " || Nat.leb 9 (nat_of_ascii a) && Nat.leb (nat_of_ascii a) 13)%bool%char = false).
  { apply orb_false_iff. split; [apply Ascii.eqb_neq; intros ->; apply H1; now left|].
    destruct (Nat.leb_spec 9 (nat_of_ascii a)), (Nat.leb_spec (nat_of_ascii a) 13); try reflexivity. exfalso. apply H1. right. lia. }
  rewrite T, (IH _ r H2). now rewrite app_cons_s.
Qed.
Lemma two_words a b : word a -> word b -> words "" (a ++ " " ++ b) = [a; b].
Proof.
  intros [A1 A2] [B1 B2]. rewrite (words_app a _ _ A2). cbn [String.append]. cbn [words Ascii.eqb Bool.eqb orb].
  rewrite <- (app_nil_r_s b) at 1. rewrite (words_app b _ _ B2). cbn [String.append words].
  destruct a as [|x a]; [easy|]. cbn [String.append]. destruct b as [|y b]; [easy|]. reflexivity.
Qed.
Lemma str_nat_file n : str_nat n <> "file"%string.
Proof.
  unfold str_nat. intros H. assert (E : NilZero.uint_of_string (NilZero.string_of_uint (Nat.to_uint n)) = None) by (rewrite H; reflexivity).
  destruct (Nat.to_uint n) eqn:D; [discriminate H| | | | | | | | | |]; rewrite NilZero.usu in E by discriminate; discriminate E.
Qed.
Section LoadProps.
Context (float : string -> option R) {T : Type} (loadtxt : string -> option T).
Lemma put_new {A} (d : list (R * A)) f v : ~ In f (map fst d) -> put_f d f v = d ++ [(f, v)].
Proof.
  induction d as [|[g w] d IH]; intros H; [reflexivity|]. cbn [put_f]. destruct (Req_EM_T g f) as [E|E]; [exfalso; apply H; now left|].
  rewrite IH; [reflexivity|]. intros K. apply H. now right.
Qed.
Lemma map_fst_combine {A B} (a : list A) : forall b : list B, length a = length b -> map fst (combine a b) = a.
Proof. induction a as [|x a IH]; intros [|y b] L; cbn in *; try discriminate L; [easy|]. f_equal. apply IH. lia. Qed.
Lemma load_all conf : forall fs tab ps data cp, NoDup fs -> (forall f, In f fs -> ~ In f (map fst data) /\ ~ In f (map fst cp)) ->
  Forall2 (fun s f => float (fst s) = Some f) conf fs ->
  Forall2 (fun s t => exists o, find (fun o => String.eqb (fst o) "file") (snd s) = Some o /\ loadtxt (snd o) = Some t) conf tab ->
  Forall2 (fun s p => points_of float (snd s) = Ok p) conf ps ->
  load_sections float loadtxt fs conf data cp = Ok (data ++ combine fs tab, cp ++ combine fs ps).
Proof.
  induction conf as [|[n o] conf IH]; intros fs tab ps data cp N D F1 F2 F3; inversion F1; subst; inversion F2; subst; inversion F3; subst.
  - cbn. now rewrite !app_nil_r.
  - cbn [load_sections combine fst snd] in *. match goal with H : points_of float o = Ok _ |- _ => rewrite H end. cbn [bindR].
    match goal with H : exists _, _ |- _ => destruct H as (w & -> & ->) end. inversion N as [|? ? N1 N2]; subst.
    match goal with |- load_sections _ _ _ _ (put_f data ?f ?t) (put_f cp ?f ?p) = _ => destruct (D f (or_introl eq_refl)) as [D1 D2]; rewrite (put_new data f t D1), (put_new cp f p D2) end.
    erewrite IH; [rewrite <- !app_assoc; reflexivity|exact N2| |eassumption|eassumption|eassumption].
    intros g Hg. destruct (D g (or_intror Hg)) as [G1 G2]. rewrite !map_app. cbn [map fst]. split; intros K; apply in_app_or in K; destruct K as [K|[K|[]]]; congruence.
Qed.
Context (show : R -> string).
Lemma points_saved s : (forall x, float (show x) = Some x /\ word (show x)) ->
  exists p, points_of float (snd (section_text show s)) = Ok p /\
    forall o v, In (o, v) p <-> exists e, In e (s_points s) /\ o = str_nat (fst e) /\ v = [fst (snd e); snd (snd e)].
Proof.
  intros H. unfold points_of.
  set (f := fun o : string * string => let! l := mapRR (to_float float) (words "" (snd o)) in Ok (fst o, l)).
  set (g := fun e : nat * (R * R) => (str_nat (fst e), (show (fst (snd e)) ++ " " ++ show (snd (snd e)))%string)).
  assert (D : forall e, f (g e) = Ok (str_nat (fst e), [fst (snd e); snd (snd e)])).
  { intros e. unfold f, g. cbn [fst snd]. destruct (H (fst (snd e))) as [E1 W1], (H (snd (snd e))) as [E2 W2].
    rewrite (two_words _ _ W1 W2). cbn [mapRR]. unfold to_float. rewrite E1, E2. reflexivity. }
  set (l := filter (fun o : string * string => negb (String.eqb (fst o) "file")) (fraction_order (snd (section_text show s)))).
  assert (L : forall o, In o l <-> exists e, In e (s_points s) /\ o = g e).
  { intros o. unfold l. rewrite filter_In, order_in. unfold section_text. cbn [snd In]. rewrite in_map_iff. split.
    - intros [[<-|(e & <- & He)] K]; [discriminate K|]. exists e. split; [exact He|reflexivity].
    - intros (e & He & ->). split; [right; exists e; split; [reflexivity|exact He]|]. apply negb_true_iff, String.eqb_neq. apply str_nat_file. }
  destruct (mapRR_all f l) as (ys & E & I).
  { intros o Ho. apply L in Ho. destruct Ho as (e & _ & ->). eexists. apply D. }
  exists ys. split; [exact E|]. intros o v. rewrite I. split.
  - intros (x & Hx & Ex). apply L in Hx. destruct Hx as (e & He & ->). rewrite D in Ex. exists e. split; [exact He|]. split; congruence.
  - intros (e & He & -> & ->). exists (g e). split; [apply L; now exists e|apply D].
Qed.
(** What the picker saved, read as critical_points.txt: each composition has its table and exactly
    the confirmed points of its curve under their numbers. *)
Theorem C191_roundtrip : forall curves es p order fr tab ss, curves <> [] -> play curves es start = p -> length order = length curves ->
  (forall x, float (show x) = Some x /\ word (show x)) ->
  Forall2 (fun o f => float (fst o) = Some f) order fr -> NoDup fr -> Forall2 (fun o t => loadtxt (snd o) = Some t) order tab ->
  save order p = Ok ss ->
  exists ps, load_data_from_directory float loadtxt [("critical_points.txt"%string, map (section_text show) ss)] = Ok (combine fr tab, combine fr ps) /\
    length ps = length fr /\
    forall i, (i < length order)%nat -> forall o v, In (o, v) (nth i ps []) <->
      exists j, (j < length (done_ p))%nat /\ o = str_nat (S j) /\
        v = [fst (nth i (nth j (done_ p) []) (0, 0)) / 10 ^ 9; snd (nth i (nth j (done_ p) []) (0, 0))].
Proof.
  intros curves es p order fr tab ss N E L H F1 ND F2 Sv.
  destruct (C189_saved curves es p order N E L) as (ss' & Sv' & Ls & Hs). rewrite Sv in Sv'. injection Sv' as <-. clear Sv.
  set (d0 := Section_ "" "" []).
  assert (LF1 : length fr = length order) by (symmetry; clear - F1; induction F1; cbn; congruence).
  assert (LF2 : length tab = length order) by (symmetry; clear - F2; induction F2; cbn; congruence).
  assert (X : exists ps, Forall2 (fun s q => points_of float (snd (section_text show s)) = Ok q /\
    forall o v, In (o, v) q <-> exists e, In e (s_points s) /\ o = str_nat (fst e) /\ v = [fst (snd e); snd (snd e)]) ss ps).
  { clear - H. induction ss as [|s ss IH]; [exists []; constructor|]. destruct IH as [ps IH]. destruct (points_saved s H) as (q & Q). exists (q :: ps). now constructor. }
  destruct X as [ps X]. exists ps.
  assert (LX : length ps = length ss) by (symmetry; clear - X; induction X; cbn; congruence).
  assert (NT : forall {A B} (P : A -> B -> Prop) l m a b i, Forall2 P l m -> (i < length l)%nat -> P (nth i l a) (nth i m b)).
  { clear. intros A B P l m a b i F. revert i. induction F; intros [|i] Hi; cbn in *; try lia; [assumption|]. apply IHF. lia. }
  assert (FT : forall {A B} (P : A -> B -> Prop) l m a b, length l = length m -> (forall i, (i < length l)%nat -> P (nth i l a) (nth i m b)) -> Forall2 P l m).
  { clear. intros A B P l. induction l as [|x l IH]; intros [|y m] a b Lm Hp; try discriminate Lm; constructor; [apply (Hp 0%nat); cbn; lia|].
    apply (IH m a b); [cbn in Lm; lia|]. intros i Hi. apply (Hp (S i)). cbn. lia. }
  split; [|split].
  - unfold load_data_from_directory. cbn [find fst snd String.eqb Ascii.eqb Bool.eqb]. unfold load_conf.
    assert (M : mapRR (to_float float) (map fst (map (section_text show) ss)) = Ok fr).
    { rewrite map_map. assert (G : Forall2 (fun s f => float (s_name s) = Some f) ss fr).
      { apply (FT _ _ _ ss fr d0 0); [congruence|]. intros i Hi. destruct (Hs i d0 (""%string, ""%string) ltac:(congruence)) as (-> & _).
        apply (NT _ _ _ order fr (""%string, ""%string) 0 i F1). congruence. }
      clear - G. induction G as [|s f ss fr G1 G2 IH]; [reflexivity|]. cbn [map mapRR]. change (fst (section_text show s)) with (s_name s). unfold to_float at 1. rewrite G1. cbn [bindR]. rewrite IH. reflexivity. }
    rewrite M. cbn [bindR]. erewrite (load_all _ fr tab ps [] [] ND); [reflexivity| | | |].
    + intros f _. split; intros [].
    + apply (FT _ _ _ _ fr (""%string, []) 0); [rewrite map_length; congruence|]. intros i Hi. rewrite map_length in Hi.
      rewrite (nth_indep _ _ (section_text show d0)) by now rewrite map_length. rewrite map_nth. cbn [section_text fst].
      destruct (Hs i d0 (""%string, ""%string) ltac:(congruence)) as (-> & _). apply (NT _ _ _ order fr (""%string, ""%string) 0 i F1). congruence.
    + destruct tab as [|t0 tab0] eqn:Et.
      { assert (ss = []) by (destruct ss; [reflexivity|cbn in *; lia]). subst ss. constructor. }
      rewrite <- Et in *. apply (FT _ _ _ _ tab (""%string, []) t0); [rewrite map_length; congruence|]. intros i Hi. rewrite map_length in Hi.
      rewrite (nth_indep _ _ (section_text show d0)) by now rewrite map_length. rewrite map_nth.
      exists ("file"%string, s_file (nth i ss d0)). split; [reflexivity|]. cbn [snd].
      destruct (Hs i d0 (""%string, ""%string) ltac:(congruence)) as (_ & -> & _). apply (NT _ _ _ order tab (""%string, ""%string) t0 i F2). congruence.
    + clear - X. induction X as [|s q ss ps [X1 _] _ IH]; cbn [map]; constructor; [exact X1|exact IH].
  - congruence.
  - intros i Hi o v. destruct (NT _ _ _ ss ps d0 [] i X ltac:(congruence)) as [_ Q]. rewrite Q.
    destruct (Hs i d0 (""%string, ""%string) Hi) as (_ & _ & Lp & Hp). split.
    + intros (e & He & -> & ->). apply (In_nth _ _ (0%nat, (0, 0))) in He. destruct He as (j & Hj & <-). rewrite Lp in Hj. exists j.
      rewrite (Hp j Hj). cbn [fst snd]. easy.
    + intros (j & Hj & -> & ->). exists (nth j (s_points (nth i ss d0)) (0%nat, (0, 0))). split; [apply nth_In; now rewrite Lp|]. rewrite (Hp j Hj). easy.
Qed.
(** But the picker saves under another name: a directory it has just written to has no data, and
    nothing is raised until it is used. *)
Theorem C191_name_refuted : forall order p dir dir', ~ In "critical_points.txt"%string (map fst dir) -> save_to show order p dir = Ok dir' ->
  load_data_from_directory float loadtxt dir' = Ok ([], []) /\
  forall target, interpolate_critical_points [] target = Err IndexError.
Proof.
  intros order p dir dir' H E. unfold save_to in E. destruct (save order p) as [ss|e]; [|discriminate E]. cbn [bindR] in E. injection E as <-.
  split; [|intros target; reflexivity]. unfold load_data_from_directory.
  assert (F : find (fun e : string * list (string * list (string * string)) => String.eqb (fst e) "critical_points.txt") (store dir "temp_critical_points.txt" (map (section_text show) ss)) = None).
  { induction dir as [|[a w] dir IH]; [reflexivity|]. cbn [store]. destruct (String.eqb_spec a "temp_critical_points.txt") as [->|Na].
    - cbn [find fst]. cbn [String.eqb Ascii.eqb Bool.eqb]. clear - H. induction dir as [|[b z] dir IH]; [reflexivity|]. cbn [find fst].
      destruct (String.eqb_spec b "critical_points.txt") as [->|Nb]; [exfalso; apply H; right; now left|]. apply IH. intros [K|K]; apply H; [now left|right; now right].
    - cbn [find fst]. destruct (String.eqb_spec a "critical_points.txt") as [->|Nb]; [exfalso; apply H; now left|]. apply IH. intros K. apply H. now right. }
  rewrite F. reflexivity.
Qed.
End LoadProps.
(** Two files whose compositions are the same number written differently: one is lost. *)
Theorem C191_same_refuted : exists float conf data cp, length conf = 2%nat /\
  load_conf float (fun f => Some f) conf = Ok (data, cp) /\ data = [(1, "b_1.0.txt"%string)].
Proof.
  exists (fun _ => Some 1), [("1", [("file", "a_1.txt")]); ("1.0", [("file", "b_1.0.txt")])]%string.
  eexists _, _. split; [reflexivity|]. unfold load_conf. cbn. destruct (Req_EM_T 1 1) as [_|N]; [|now contradiction N]. split; reflexivity.
Qed.
Example C191_roundtrip_ex : exists ss, save [("0", "a_0.txt"); ("1", "b_1.txt")]%string
    (play [([1; 2], [3; 4]); ([1; 2], [5; 6])] [KeyN; Pick 7 1; Pick 8 2; Enter; Escape] start) = Ok ss /\
  map (fun s => map fst (snd (section_text (fun _ => "7.0"%string) s))) ss = [["file"; "1"]; ["file"; "1"]]%string /\
  word "7.0" /\ number "7.0".
Proof.
  eexists. split; [reflexivity|]. split; [reflexivity|]. split.
  - split; [discriminate|]. cbn. repeat split; intros [K|K]; try discriminate K; cbn in K; lia.
  - right. exists "7"%string, "0"%string. repeat split; discriminate.
Qed.

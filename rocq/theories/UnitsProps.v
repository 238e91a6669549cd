(** Properties C11-C15: units. *)
From Coq Require Import Reals String Ascii List Bool Arith ZArith Lia Lra Psatz Sorted FinFun.
From Verif Require Import Common MatStrModel UnitsModel.
Import ListNotations.
Open Scope R_scope.
Open Scope list_scope.

(** * Specification *)

(** A unit table all of whose factors are positive. *)
Definition positive (tb : table) : Prop := forall u f, tget tb u = Some f -> 0 < f.

(** * Loops multiply and divide by the same factor *)
Lemma loops fl tb l : positive tb ->
  (exists K, 0 < K /\ forall v, si_loop fl tb v l = Ok (v * K) /\ as_loop fl tb v l = Ok (v / K)) \/
  (exists e, forall v, si_loop fl tb v l = Err e /\ as_loop fl tb v l = Err e).
Proof.
  intros Hp. induction l as [|[u p] l IH]; simpl.
  - left. exists 1. split; [lra|]. intros v. split; f_equal; field.
  - destruct (power_of fl p) as [x|e]; simpl; [|right; eauto].
    destruct (tget tb u) as [f|] eqn:Ef; [|right; eauto].
    destruct IH as [(K & HK & H)|(e & H)]; [|right; exists e; intros v; split; [apply (H (v * Rpower f x))|apply (H (v / Rpower f x))]].
    left. exists (Rpower f x * K).
    assert (0 < Rpower f x) by (unfold Rpower; apply exp_pos).
    split; [now apply Rmult_lt_0_compat|]. intros v.
    destruct (H (v * Rpower f x)) as [-> _]. destruct (H (v / Rpower f x)) as [_ ->].
    split; f_equal; field; lra.
Qed.

Lemma units_cases fl tb u : positive tb ->
  (exists K, 0 < K /\ forall v, siUnits fl tb (Some v) (Some u) = Ok (Some (v * K)) /\
                        asUnit fl tb (Some v) (Some u) = Ok (Some (v / K))) \/
  (exists e, forall v, siUnits fl tb (Some v) (Some u) = Err e /\ asUnit fl tb (Some v) (Some u) = Err e).
Proof.
  intros Hp. destruct (loops fl tb (split_units u) Hp) as [(K & HK & H)|(e & H)]; [left|right].
  - exists K. split; [assumption|]. intros v. simpl. destruct (H v) as [-> ->]. split; reflexivity.
  - exists e. intros v. simpl. destruct (H v) as [-> ->]. split; reflexivity.
Qed.

(** * C11 *)

(** For every table with positive factors, every texts of units and every value:
    whenever the conversion to SI is accepted, converting back gives the value
    (and vice versa); converting there and back gives the value; going through a
    third unit is the same as converting directly. *)
Theorem C11_unit_round_trip :
  forall to_float tb a b m v,
    positive tb ->
    (forall y, siUnits to_float tb (Some v) (Some a) = Ok (Some y) ->
       asUnit to_float tb (Some y) (Some a) = Ok (Some v)) /\
    (forall y, asUnit to_float tb (Some v) (Some a) = Ok (Some y) ->
       siUnits to_float tb (Some y) (Some a) = Ok (Some v)) /\
    (forall y, convert to_float tb (Some v) (Some a) (Some b) = Ok (Some y) ->
       convert to_float tb (Some y) (Some b) (Some a) = Ok (Some v)) /\
    (forall x y, convert to_float tb (Some v) (Some a) (Some m) = Ok (Some x) ->
       convert to_float tb (Some x) (Some m) (Some b) = Ok (Some y) ->
       convert to_float tb (Some v) (Some a) (Some b) = Ok (Some y)).
Proof.
  intros fl tb a b m v Hp. unfold convert.
  destruct (units_cases fl tb a Hp) as [(A & HA & Ha)|(ea & Ha)];
  destruct (units_cases fl tb b Hp) as [(B & HB & Hb)|(eb & Hb)];
  destruct (units_cases fl tb m Hp) as [(M & HM & Hm)|(em & Hm)];
  repeat split; intros;
  repeat match goal with
  | H : forall v, siUnits fl tb (Some v) (Some ?u) = _ /\ asUnit fl tb (Some v) (Some ?u) = _ |- _ =>
      assert (forall v, siUnits fl tb (Some v) (Some u) = _) by (intros; apply H);
      assert (forall v, asUnit fl tb (Some v) (Some u) = _) by (intros; apply H); clear H
  end;
  cbn [bindR] in *;
  repeat match goal with
  | H : forall v, siUnits fl tb (Some v) (Some ?u) = _, G : context [siUnits fl tb (Some _) (Some ?u)] |- _ =>
      rewrite H in G; cbn [bindR] in G
  | H : forall v, asUnit fl tb (Some v) (Some ?u) = _, G : context [asUnit fl tb (Some _) (Some ?u)] |- _ =>
      rewrite H in G; cbn [bindR] in G
  | H : forall v, siUnits fl tb (Some v) (Some ?u) = _ |- context [siUnits fl tb (Some _) (Some ?u)] =>
      rewrite H; cbn [bindR]
  | H : forall v, asUnit fl tb (Some v) (Some ?u) = _ |- context [asUnit fl tb (Some _) (Some ?u)] =>
      rewrite H; cbn [bindR]
  | H : Ok (Some _) = Ok (Some _) |- _ => injection H as <-
  | H : Err _ = Ok _ |- _ => discriminate H
  end; try (f_equal; f_equal; field; lra).
Qed.
Print Assumptions C11_unit_round_trip.

(** The direction of a conversion: the answer in the new unit is the same SI amount. *)
Theorem C11_convert_same_amount :
  forall to_float tb a b v y,
    positive tb -> convert to_float tb (Some v) (Some a) (Some b) = Ok (Some y) ->
    exists s, siUnits to_float tb (Some v) (Some a) = Ok (Some s) /\
              siUnits to_float tb (Some y) (Some b) = Ok (Some s).
Proof.
  intros fl tb a b v y Hp H. unfold convert in H.
  destruct (siUnits fl tb (Some v) (Some a)) as [[s|]|e] eqn:E; [|discriminate|discriminate]. cbn [bindR] in H.
  exists s. split; [reflexivity|]. now apply (proj1 (proj2 (C11_unit_round_trip fl tb b b b s Hp))).
Qed.
Print Assumptions C11_convert_same_amount.

(** Reading units files keeps the table positive, so the hypothesis above holds for
    every table built from entries with positive values; and a unit is never
    forgotten by reading another file. *)
Definition entry_positive (e : uentry) : Prop :=
  match e with UUnit _ v => 0 < v | UMeta _ _ _ f => 0 < f end.

Lemma text_eqb_eq a b : text_eqb a b = true <-> a = b.
Proof. unfold text_eqb. destruct (list_eq_dec ascii_dec a b); split; congruence. Qed.

Lemma tset_positive tb u v : positive tb -> 0 < v -> positive (tset tb u v).
Proof.
  intros Hp Hv u' f. simpl. destruct (text_eqb u u'); [now intros [= <-]|apply Hp].
Qed.

Lemma si_suffix_positive s c d f : 0 < f -> Forall (fun p => 0 < snd p) (si_suffix s c d f).
Proof.
  intros Hf. unfold si_suffix. apply Forall_app. split; [|apply Forall_app; split].
  - apply Forall_forall. intros x Hx. apply in_map_iff in Hx as (p & <- & _). simpl.
    apply Rmult_lt_0_compat; [apply powerRZ_lt; lra|assumption].
  - destruct c; constructor; [simpl; lra|constructor].
  - destruct d; constructor; [simpl; lra|constructor].
Qed.

Lemma fold_tset_positive l tb : Forall (fun p => 0 < snd p) l -> positive tb ->
  positive (fold_left (fun tb p => tset tb (fst p) (snd p)) l tb).
Proof.
  intros H. revert tb. induction H as [|p l Hp _ IH]; intros tb Ht; simpl; [assumption|].
  apply IH. now apply tset_positive.
Qed.

Lemma fold_tset_known l tb u : tget tb u <> None ->
  tget (fold_left (fun tb p => tset tb (fst p) (snd p)) l tb) u <> None.
Proof.
  revert tb. induction l as [|p l IH]; intros tb H; simpl; [assumption|]. apply IH.
  simpl. destruct (text_eqb _ u); [discriminate|assumption].
Qed.

Theorem C11_tables_positive :
  forall tb es, positive tb -> Forall entry_positive es ->
    positive (read_units tb es) /\ forall u, tget tb u <> None -> tget (read_units tb es) u <> None.
Proof.
  intros tb es Hp He. revert tb Hp. induction He as [|e es H _ IH]; intros tb Hp; simpl.
  - auto.
  - destruct e as [u v|s c d f]; simpl in *.
    + destruct (IH (tset tb u v)) as [I1 I2]; [now apply tset_positive|]. split; [assumption|].
      intros u' Hu. apply I2. simpl. destruct (text_eqb u u'); [discriminate|assumption].
    + destruct (IH (fold_left (fun tb p => tset tb (fst p) (snd p)) (si_suffix s c d f) tb)) as [I1 I2].
      { apply fold_tset_positive; [now apply si_suffix_positive|assumption]. }
      split; [assumption|]. intros u' Hu. apply I2. now apply fold_tset_known.
Qed.
Print Assumptions C11_tables_positive.

Definition ex_entries : list uentry :=
  [UMeta (t "m") true true 1; UMeta (t "s") false false 1; UUnit (t "h") 3600; UMeta (t "eV") false false (16 / 100)].
Definition ex_table : table := read_units [] ex_entries.
Lemma ex_positive : positive ex_table.
Proof. apply C11_tables_positive; [intros u f; discriminate|]. repeat constructor; simpl; lra. Qed.
Definition ex_float (s : text) : option R :=
  if text_eqb s (t "-1") then Some (-1) else if text_eqb s (t "5") then Some 5 else None.
Example C11_case :
  positive ex_table /\ exists y, siUnits ex_float ex_table (Some 5) (Some (t "km h-1")) = Ok (Some y).
Proof. split; [apply ex_positive|]. eexists. reflexivity. Qed.

(** ** What a unit text means *)

Lemma span_all p a b : forallb p a = true -> (match b with [] => True | c :: _ => p c = false end) ->
  span p (a ++ b) = (a, b).
Proof.
  intros Ha Hb. induction a as [|c a IH]; simpl in *.
  - destruct b as [|c b]; [reflexivity|]. simpl. now rewrite Hb.
  - apply andb_true_iff in Ha as [-> Ha]. now rewrite IH.
Qed.

(** A name is a non-empty run of name characters; a power is empty, or starts with
    a sign or a digit (or a decimal point) and contains no further sign or blank. *)
Definition good_name (n : text) : Prop := n <> [] /\ forallb is_name_char n = true.
Definition good_power (p : text) : Prop :=
  match p with
  | [] => True
  | c :: p' => (is_sign c = true \/ (is_digit c = true \/ c = "."%char)) /\ forallb is_power_char p' = true
  end.
(** The usual way of writing a compound unit: factors separated by a blank, the
    power directly behind the name or after a ^. *)
Fixpoint written (l : list (text * bool * text)) : text :=
  match l with
  | [] => []
  | [(n, hat, p)] => n ++ (if hat then ["^"%char] else []) ++ p
  | (n, hat, p) :: l' => n ++ (if hat then ["^"%char] else []) ++ p ++ " "%char :: written l'
  end.

Lemma digit_facts c : is_digit c = true -> is_name_char c = false /\ is_power_char c = true /\
   is_sign c = false /\ Ascii.eqb c "^" = false.
Proof. destruct c as [[][][][][][][][]]; vm_compute; intros H; try discriminate H; auto. Qed.

Lemma match_power_ok hat p r : good_power p ->
  (match r with [] => True | c :: _ => c = " "%char end) ->
  match_power ((if hat : bool then ["^"%char] else []) ++ p ++ r) = (p, r).
Proof.
  intros Hp Hr.
  assert (Hrp : match r with [] => True | c :: _ => is_power_char c = false end).
  { destruct r as [|c r]; [exact I|]. now subst c. }
  assert (H : forall s, s = p ++ r ->
     match s with
     | c :: s2 => if is_sign c then let (p0, r0) := span is_power_char s2 in (c :: p0, r0) else span is_power_char s
     | [] => ([], [])
     end = (p, r)).
  { intros s ->. destruct p as [|c p']; simpl.
    - destruct r as [|c r]; [reflexivity|]. subst c. reflexivity.
    - simpl in Hp. destruct Hp as [Hc Hp']. destruct (is_sign c) eqn:Es.
      + now rewrite (span_all _ _ _ Hp' Hrp).
      + destruct Hc as [Hc|Hc]; [congruence|].
        assert (is_power_char c = true) as Hpc.
        { destruct Hc as [Hd| ->]; [apply (digit_facts _ Hd)|reflexivity]. }
        change (c :: p' ++ r) with ((c :: p') ++ r).
        assert (forallb is_power_char (c :: p') = true) as Hall by (simpl; now rewrite Hpc).
        apply (span_all _ _ _ Hall Hrp). }
  unfold match_power. destruct hat; simpl.
  - apply H. reflexivity.
  - assert (Hs : match p ++ r with c :: s' => if Ascii.eqb c "^" then s' else p ++ r | [] => [] end = p ++ r).
    { destruct p as [|c p']; simpl.
      - destruct r as [|c r]; [reflexivity|]. now subst c.
      - destruct Hp as [Hc _].
        assert (Ascii.eqb c "^" = false) as ->; [|reflexivity].
        destruct Hc as [Hc|[Hc| ->]]; [|apply (digit_facts _ Hc)|reflexivity].
        destruct (Ascii.eqb_spec c "^"%char); [subst; discriminate|reflexivity]. }
    rewrite Hs. apply H. reflexivity.
Qed.

Lemma findall_written l : 
  Forall (fun x => good_name (fst (fst x)) /\ good_power (snd x)) l ->
  forall fuel, (length (written l) <= fuel)%nat ->
  findall fuel (written l) = map (fun x => (fst (fst x), snd x)) l.
Proof.
  induction 1 as [|[[n hat] p] l [[Hn0 Hn] Hp] Hl IH]; intros fuel Hf.
  - destruct fuel; reflexivity.
  - cbn [fst snd] in *. destruct n as [|c n]; [congruence|].
    assert (Hc : is_name_char c = true) by (simpl in Hn; apply andb_true_iff in Hn; tauto).
    set (rest := match l with [] => [] | _ => " "%char :: written l end).
    assert (Hw : written (@cons (text * bool * text) (@pair (text * bool) text (@pair text bool (c :: n) hat) p) l) = (c :: n) ++ ((if hat : bool then ["^"%char] else []) ++ p ++ rest)).
    { unfold rest. destruct l; simpl; [now rewrite app_nil_r|reflexivity]. }
    rewrite Hw. rewrite Hw in Hf. destruct fuel as [|fuel]; [simpl in Hf; lia|].
    cbn [findall app]. rewrite Hc.
    assert (Hspan : span is_name_char ((c :: n) ++ ((if hat : bool then ["^"%char] else []) ++ p ++ rest))
        = (c :: n, (if hat : bool then ["^"%char] else []) ++ p ++ rest)).
    { apply span_all; [exact Hn|]. destruct hat; simpl; [reflexivity|].
      destruct p as [|d p']; simpl.
      - unfold rest. destruct l; [exact I|reflexivity].
      - destruct Hp as [Hd _]. destruct Hd as [Hd|[Hd| ->]].
        + revert Hd. destruct d as [[][][][][][][][]]; vm_compute; congruence.
        + apply (digit_facts _ Hd). + reflexivity. }
    cbn [app] in Hspan. rewrite Hspan.
    rewrite match_power_ok; [|assumption|unfold rest; destruct l; [exact I|reflexivity]].
    refine (f_equal (cons (c :: n, p)) _). unfold rest in *. destruct l as [|y l'].
    + destruct fuel; reflexivity.
    + assert (Hlen : (S (length (written (y :: l'))) <= fuel)%nat).
      { rewrite !app_length in Hf. cbn [length] in Hf. clear - Hf. lia. }
      destruct fuel as [|fuel]; [lia|]. cbn [findall].
      change (is_name_char " ") with false. cbv iota. apply IH. lia.
Qed.

(** A compound unit written in the usual way is read as exactly its list of
    (name, power) pairs. *)
Theorem C11_compound_units_parse :
  forall l, Forall (fun x => good_name (fst (fst x)) /\ good_power (snd x)) l ->
    split_units (written l) = map (fun x => (fst (fst x), snd x)) l.
Proof. intros l H. apply findall_written; [assumption|lia]. Qed.
Print Assumptions C11_compound_units_parse.
Example C11_parse_case :
  written [(t "mA", false, t ""); (t "cm", false, t "-2"); (t "nm", true, t "-1")] = t "mA cm-2 nm^-1" /\
  Forall (fun x => good_name (fst (fst x)) /\ good_power (snd x))
    [(t "mA", false, t ""); (t "cm", false, t "-2"); (t "nm", true, t "-1")].
Proof.
  split; [reflexivity|].
  repeat constructor; try discriminate; try reflexivity; simpl; try (now left).
Qed.

(** A prefixed unit means its power of ten: after reading a META line for the unit
    [s] as the last one, the name prefix+unit stands for 1000^e times the factor. *)
Lemma tget_fold l tb k v : NoDup (map fst l) -> In (k, v) l ->
  tget (fold_left (fun tb p => tset tb (fst p) (snd p)) l tb) k = Some v.
Proof.
  revert tb. induction l as [|[k0 v0] l IH]; intros tb Hnd Hin; [destruct Hin|].
  simpl in Hnd. inversion Hnd as [|? ? Hk Hnd']; subst. simpl. destruct Hin as [E|Hin].
  - injection E as -> ->. clear IH Hnd Hnd'. 
    assert (forall l tb, ~ In k (map fst l) -> tget tb k = Some v ->
      tget (fold_left (fun tb p => tset tb (fst p) (snd p)) l tb) k = Some v) as G.
    { clear. induction l as [|[k1 v1] l IH]; intros tb Hn Ht; simpl; [assumption|].
      apply IH; [simpl in Hn; tauto|]. simpl.
      assert (text_eqb k1 k = false) as ->; [|assumption].
      apply not_true_is_false. rewrite text_eqb_eq. simpl in Hn. intros ->. tauto. }
    apply G; [assumption|]. simpl. assert (text_eqb k k = true) as -> by now apply text_eqb_eq. reflexivity.
  - now apply IH.
Qed.

Lemma app_inv_len {A} (a b s : list A) : a ++ s = b ++ s -> a = b.
Proof. apply app_inv_tail. Qed.

(** The decimal prefixes, with their powers of ten. *)
Definition metric : list (text * Z) :=
  [(t "Y", 24%Z); (t "Z", 21%Z); (t "E", 18%Z); (t "P", 15%Z); (t "T", 12%Z); (t "G", 9%Z); (t "M", 6%Z);
   (t "k", 3%Z); (t "", 0%Z); (t "m", (-3)%Z); (t "u", (-6)%Z); (t "n", (-9)%Z); (t "p", (-12)%Z);
   (t "f", (-15)%Z); (t "a", (-18)%Z); (t "z", (-21)%Z); (t "y", (-24)%Z)].
Lemma pow_thousand k : powerRZ 1000 k = powerRZ 10 (3 * k).
Proof.
  assert (H : forall n, 1000 ^ n = 10 ^ (3 * n)).
  { intros n. rewrite pow_mult. f_equal. simpl. ring. }
  destruct k as [|p|p]; cbn [Z.mul powerRZ]; [reflexivity| |]; rewrite H, Pos2Nat.inj_mul; reflexivity.
Qed.
Theorem C11_prefixes :
  forall to_float tb s centi deci f p e v,
    good_name s -> 0 < f ->
    In (p, e) metric ->
    let tb' := read_units tb [UMeta s centi deci f] in
    siUnits to_float tb' (Some v) (Some (p ++ s)) = Ok (Some (v * (powerRZ 10 e * f))) /\
    (centi = true -> siUnits to_float tb' (Some v) (Some (t "c" ++ s)) = Ok (Some (v * (1 / 100 * f)))) /\
    (deci = true -> siUnits to_float tb' (Some v) (Some (t "d" ++ s)) = Ok (Some (v * (1 / 10 * f)))).
Proof.
  intros fl tb s centi deci f p e0 v [Hs0 Hs] Hf Hin0 tb'.
  assert (He : exists e, In (p, e) prefixes /\ e0 = (3 * e)%Z).
  { revert Hin0. unfold metric, prefixes. simpl. intros Hin0.
    repeat (destruct Hin0 as [E|Hin0]; [injection E as <- <-; eexists; split; [eauto 25|reflexivity]|]). destruct Hin0. }
  destruct He as (e & Hin & ->). rewrite <- pow_thousand.
  assert (Hnd : NoDup (map fst (si_suffix s centi deci f))).
  { assert (Hmap : map fst (si_suffix s centi deci f)
              = map (fun q => q ++ s) (map fst prefixes ++ (if centi then [t "c"] else []) ++ (if deci then [t "d"] else []))).
    { unfold si_suffix. rewrite !map_app, !map_map. destruct centi, deci; reflexivity. }
    rewrite Hmap. apply Injective_map_NoDup.
    - intros a b. apply app_inv_tail.
    - repeat (constructor; [simpl; destruct centi, deci; simpl; intuition discriminate|]).
      destruct centi, deci; repeat (constructor; [simpl; intuition discriminate|]); constructor. }
  assert (Hone : forall pre k, forallb is_name_char pre = true ->
     In (pre ++ s, k) (si_suffix s centi deci f) -> 0 < k ->
     siUnits fl tb' (Some v) (Some (pre ++ s)) = Ok (Some (v * k))).
  { intros pre k Hpre Hi Hk.
    assert (Hsplit : split_units (pre ++ s) = [(pre ++ s, [])]).
    { pose proof (C11_compound_units_parse [(pre ++ s, false, [])]) as P. simpl in P.
      rewrite app_nil_r in P. apply P. repeat constructor; simpl; try exact I.
      - destruct pre; [assumption|discriminate].
      - now rewrite forallb_app, Hpre. }
    unfold siUnits. rewrite Hsplit. simpl.
    unfold tb', read_units. cbn [fold_left add_entry]. rewrite (tget_fold _ _ _ k Hnd Hi).
    rewrite Rpower_1 by assumption. reflexivity. }
  split; [|split].
  - apply Hone.
    + revert Hin. simpl. intros Hin. repeat destruct Hin as [E|Hin]; try (injection E as <- <-; reflexivity). destruct Hin.
    + unfold si_suffix. apply in_or_app. left. apply in_map_iff. exists (p, e). split; [reflexivity|assumption].
    + apply Rmult_lt_0_compat; [apply powerRZ_lt; lra|assumption].
  - intros ->. replace (1 / 100 * f) with (/ 100 * f) by lra. apply Hone; [reflexivity| |lra].
    unfold si_suffix. apply in_or_app. right. apply in_or_app. left. now left.
  - intros ->. replace (1 / 10 * f) with (/ 10 * f) by lra. apply Hone; [reflexivity| |lra].
    unfold si_suffix. apply in_or_app. right. apply in_or_app. right. now left.
Qed.
Print Assumptions C11_prefixes.
Example C11_prefix_case : good_name (t "eV") /\ In (t "m", (-3)%Z) metric.
Proof. split; [split; [discriminate|reflexivity]|]. simpl. tauto. Qed.

(** Converting a text "number unit" is converting the number with the unit.
    A number is here an optional sign, digits, an optional decimal part and an
    optional exponent, written as Python does. *)
Definition good_number (sg ip fp ex : text) : Prop :=
  (sg = [] \/ sg = t "+" \/ sg = t "-") /\
  ip <> [] /\ forallb is_digit ip = true /\
  (fp = [] \/ exists ds, fp = "."%char :: ds /\ ds <> [] /\ forallb is_digit ds = true) /\
  (ex = [] \/ exists e s ds, (e = "e" \/ e = "E")%char /\ (s = [] \/ s = t "+" \/ s = t "-") /\
      ds <> [] /\ forallb is_digit ds = true /\ ex = e :: s ++ ds).

Lemma match_exponent_ok ex r :
  (ex = [] \/ exists e s ds, (e = "e" \/ e = "E")%char /\ (s = [] \/ s = t "+" \/ s = t "-") /\
      ds <> [] /\ forallb is_digit ds = true /\ ex = e :: s ++ ds) ->
  match r with [] => True | c :: _ => c = " "%char end ->
  match_exponent (ex ++ r) = (ex, r).
Proof.
  intros Hex Hr.
  assert (Hd : match r with [] => True | c :: _ => is_digit c = false end).
  { destruct r; [exact I|]. now subst. }
  destruct Hex as [->|(e & s & ds & He & Hs & Hds0 & Hds & ->)].
  - simpl. destruct r as [|c r]; [reflexivity|]. now subst.
  - assert (E : (Ascii.eqb e "e" || Ascii.eqb e "E")%char = true) by (destruct He as [-> | ->]; reflexivity).
    cbn [app match_exponent]. rewrite E.
    destruct ds as [|d ds]; [congruence|].
    assert (Hdd : is_digit d = true) by (simpl in Hds; apply andb_true_iff in Hds; tauto).
    assert (Hsp : span is_digit ((d :: ds) ++ r) = (d :: ds, r)) by now apply span_all.
    destruct Hs as [->|[->| ->]]; cbn [app t list_ascii_of_string].
    + destruct (digit_facts _ Hdd) as (_ & _ & -> & _). cbn [app] in Hsp. rewrite Hsp. reflexivity.
    + change (is_sign "+") with true. cbv iota. cbn [app] in Hsp. rewrite Hsp. reflexivity.
    + change (is_sign "-") with true. cbv iota. cbn [app] in Hsp. rewrite Hsp. reflexivity.
Qed.

Lemma match_number_ok sg ip fp ex r : good_number sg ip fp ex ->
  match r with [] => True | c :: _ => c = " "%char end ->
  match_number (sg ++ ip ++ fp ++ ex ++ r) = Some (sg ++ ip ++ fp ++ ex, r).
Proof.
  intros (Hsg & Hip0 & Hip & Hfp & Hex) Hr.
  pose proof (match_exponent_ok _ _ Hex Hr) as Hme.
  destruct ip as [|i ip]; [congruence|].
  assert (Hi : is_digit i = true) by (simpl in Hip; apply andb_true_iff in Hip; tauto).
  assert (Hnd : match ex ++ r with [] => True | c :: _ => is_digit c = false end).
  { destruct Hex as [->|(e & s & ds & [-> | ->] & _ & _ & _ & ->)]; simpl; try reflexivity.
    destruct r; [exact I|]. now subst. }
  assert (Hdot : match ex ++ r with [] => True | c :: _ => Ascii.eqb c "."%char = false end).
  { destruct Hex as [->|(e & s & ds & [-> | ->] & _ & _ & _ & ->)]; simpl; try reflexivity.
    destruct r; [exact I|]. now subst. }
  assert (Hsp : span is_digit ((i :: ip) ++ fp ++ ex ++ r) = (i :: ip, fp ++ ex ++ r)).
  { apply span_all; [assumption|]. destruct Hfp as [->|(ds & -> & _)]; [assumption|reflexivity]. }
  assert (Hs : (match sg ++ (i :: ip) ++ fp ++ ex ++ r with
                | c :: s' => if is_sign c then ([c], s' : text) else ([], (sg ++ (i :: ip) ++ fp ++ ex ++ r) : text)
                | [] => ([], [] : text) end) = (sg, (i :: ip) ++ fp ++ ex ++ r)).
  { destruct (digit_facts _ Hi) as (_ & _ & Hsi & _).
    destruct Hsg as [->|[->| ->]]; simpl; [now rewrite Hsi|reflexivity|reflexivity]. }
  unfold match_number. unfold text in *. rewrite Hs, Hsp.
  destruct Hfp as [->|(ds & -> & Hds0 & Hds)].
  - cbn [app]. destruct (ex ++ r) as [|c er] eqn:Eer.
    + rewrite Hme. reflexivity.
    + rewrite Hdot, Hme. reflexivity.
  - cbn [app]. change (Ascii.eqb "." ".") with true. cbv iota.
    rewrite (span_all is_digit ds (ex ++ r) Hds Hnd).
    destruct ds as [|d ds]; [congruence|]. rewrite Hme. f_equal. f_equal. f_equal.
    cbn [app]. f_equal. rewrite <- app_assoc. reflexivity.
Qed.

Theorem C11_value_with_unit :
  forall to_float tb sg ip fp ex u x,
    good_number sg ip fp ex ->
    to_float (sg ++ ip ++ fp ++ ex) = Some x ->
    match u with [] => False | c :: _ => is_blank c = false end ->
    siUnitFromString to_float tb (sg ++ ip ++ fp ++ ex ++ " "%char :: u) =
      match siUnits to_float tb (Some x) (Some u) with Ok (Some y) => Ok y | Ok None => Err AttributeError | Err e => Err e end.
Proof.
  intros fl tb sg ip fp ex u x Hn Hx Hu. unfold siUnitFromString, separate.
  rewrite (match_number_ok _ _ _ _ (" "%char :: u) Hn eq_refl).
  assert (Hl : lstrip is_blank (" "%char :: u) = u).
  { destruct u as [|c u]; [destruct Hu|]. simpl. now rewrite Hu. }
  rewrite Hl, Hx. simpl. destruct (si_loop fl tb x (split_units u)); reflexivity.
Qed.
Print Assumptions C11_value_with_unit.
Example C11_value_case :
  good_number (t "-") (t "2") (t ".5") (t "e-3") /\
  t "-" ++ t "2" ++ t ".5" ++ t "e-3" ++ " "%char :: t "cm2" = t "-2.5e-3 cm2".
Proof.
  split; [|reflexivity]. split; [tauto|]. split; [discriminate|]. split; [reflexivity|].
  split; right; [exists (t "5")|exists "e"%char, (t "-"), (t "3")]; intuition (try discriminate; reflexivity).
Qed.

(** * C12: photon conversions *)

(** What is needed of the units table: the names used by the functions. *)
Definition knows (tb : table) (q nm : R) : Prop :=
  tget tb (t "eV") = Some q /\ tget tb (t "nm") = Some nm /\ tget tb (t "s") = Some 1 /\
  0 < q /\ 0 < nm.

(** [to_float] reads the power "-1" as minus one. *)
Definition reads_minus_one (fl : text -> option R) : Prop := fl (t "-1") = Some (-1).

Lemma divide_ok a b : b <> 0 -> divide a b = Ok (a / b).
Proof. intros H. unfold divide. destruct (Req_EM_T b 0); [contradiction|reflexivity]. Qed.

Lemma split_eV : split_units (t "eV") = [(t "eV", [])]. Proof. reflexivity. Qed.
Lemma split_nm : split_units (t "nm") = [(t "nm", [])]. Proof. reflexivity. Qed.
Lemma split_eVs : split_units (t "eV s") = [(t "eV", []); (t "s", [])]. Proof. reflexivity. Qed.
Lemma split_nms : split_units (t "nm s-1") = [(t "nm", []); (t "s", t "-1")]. Proof. reflexivity. Qed.

Lemma as_eV fl tb q nm v : knows tb q nm -> as_num fl tb v "eV" = Ok (v / q).
Proof.
  intros (Hq & _ & _ & H & _). unfold as_num. rewrite split_eV. cbn [as_loop power_of bindR].
  rewrite Hq, Rpower_1; auto.
Qed.
Lemma as_nm fl tb q nm v : knows tb q nm -> as_num fl tb v "nm" = Ok (v / nm).
Proof.
  intros (_ & Hn & _ & _ & H). unfold as_num. rewrite split_nm. cbn [as_loop power_of bindR].
  rewrite Hn, Rpower_1; auto.
Qed.
Lemma si_nm fl tb q nm v : knows tb q nm -> si_num fl tb v "nm" = Ok (v * nm).
Proof.
  intros (_ & Hn & _ & _ & H). unfold si_num. rewrite split_nm. cbn [si_loop power_of bindR].
  rewrite Hn, Rpower_1; auto.
Qed.
Lemma as_eVs fl tb q nm v : knows tb q nm -> as_num fl tb v "eV s" = Ok (v / q).
Proof.
  intros (Hq & _ & Hs & H & _). unfold as_num. rewrite split_eVs. cbn [as_loop power_of bindR].
  rewrite Hq, Hs, !Rpower_1 by lra. f_equal. field. lra.
Qed.
Lemma as_nms fl tb q nm v : reads_minus_one fl -> knows tb q nm -> as_num fl tb v "nm s-1" = Ok (v / nm).
Proof.
  intros Hf (_ & Hn & Hs & _ & H). unfold as_num. rewrite split_nms. cbn [as_loop bindR].
  change (power_of fl (t "-1")) with (match fl (t "-1") with Some x => Ok x | None => Err ValueError end).
  rewrite Hf. cbn [power_of bindR]. rewrite Hn, Hs, Rpower_1 by assumption.
  replace (-1) with (- (1)) by lra. rewrite Rpower_Ropp, Rpower_1 by lra. f_equal. field. lra.
Qed.

(** Spec: a photon of wavelength [l] (nm) has energy [E] (eV) / [J] (J) and frequency [f] (Hz). *)
Definition is_photon (h c q nm l E J f : R) : Prop :=
  f * (l * nm) = c /\ J = h * f /\ J = E * q.

(** For every nonzero value: each conversion is its own inverse, the three agree
    with E = h f = h c / lambda, and each is strictly decreasing on positive
    values. Zero raises. *)
Theorem C12_photon_conversions :
  forall to_float h c tb q nm, knows tb q nm -> reads_minus_one to_float -> 0 < h -> 0 < c ->
    (forall l, l <> 0 -> exists E J f,
       eVnm to_float h c tb l = Ok E /\ nmJ to_float h c tb l = Ok J /\ nmHz to_float c tb l = Ok f /\
       is_photon h c q nm l E J f /\
       eVnm to_float h c tb E = Ok l /\ nmHz to_float c tb f = Ok l /\
       mJ h c (l * nm) = Ok J /\ mJ h c J = Ok (l * nm)) /\
    (forall l1 l2 E1 E2 J1 J2 f1 f2, 0 < l1 < l2 ->
       eVnm to_float h c tb l1 = Ok E1 -> eVnm to_float h c tb l2 = Ok E2 ->
       nmJ to_float h c tb l1 = Ok J1 -> nmJ to_float h c tb l2 = Ok J2 ->
       nmHz to_float c tb l1 = Ok f1 -> nmHz to_float c tb l2 = Ok f2 ->
       0 < E2 < E1 /\ 0 < J2 < J1 /\ 0 < f2 < f1) /\
    eVnm to_float h c tb 0 = Err ZeroDivisionError /\ nmJ to_float h c tb 0 = Err ZeroDivisionError /\
    nmHz to_float c tb 0 = Err ZeroDivisionError.
Proof.
  intros fl h c tb q nm K Hf Hh Hc. assert (0 < q /\ 0 < nm) as [Hq Hn] by (unfold knows in K; tauto).
  assert (HeV : forall v, v <> 0 -> eVnm fl h c tb v = Ok (h / q * (c / nm) / v)).
  { intros v Hv. unfold eVnm. rewrite (as_eV _ _ _ _ _ K), (as_nm _ _ _ _ _ K). apply divide_ok, Hv. }
  assert (HHz : forall v, v <> 0 -> nmHz fl c tb v = Ok (c / nm / v)).
  { intros v Hv. unfold nmHz. rewrite (as_nms _ _ _ _ _ Hf K). apply divide_ok, Hv. }
  assert (HJ : forall v, v <> 0 -> nmJ fl h c tb v = Ok (h * c / (v * nm))).
  { intros v Hv. unfold nmJ. rewrite (si_nm _ _ _ _ _ K). apply divide_ok.
    apply Rmult_integral_contrapositive_currified; lra. }
  assert (Hdec : forall k l1 l2, 0 < k -> 0 < l1 < l2 -> 0 < k / l2 < k / l1).
  { intros k l1 l2 Hk Hl. split; [apply Rdiv_lt_0_compat; lra|].
    apply Rmult_lt_compat_l; [assumption|]. apply Rinv_lt_contravar; [|lra]. apply Rmult_lt_0_compat; lra. }
  split; [|split].
  - intros l Hl. exists (h / q * (c / nm) / l), (h * c / (l * nm)), (c / nm / l).
    assert (Hk : h / q * (c / nm) <> 0).
    { apply Rgt_not_eq, Rmult_lt_0_compat; apply Rdiv_lt_0_compat; lra. }
    assert (Hk2 : c / nm <> 0) by (apply Rgt_not_eq, Rdiv_lt_0_compat; lra).
    assert (Hd : forall a b, a <> 0 -> b <> 0 -> a / b <> 0).
    { intros a b Ha Hb. apply Rmult_integral_contrapositive_currified; [assumption|now apply Rinv_neq_0_compat]. }
    repeat split.
    + now apply HeV. + now apply HJ. + now apply HHz.
    + field. split; lra. + field. split; lra. + field. repeat split; lra.
    + rewrite HeV by now apply Hd. f_equal. field. repeat split; lra.
    + rewrite HHz by now apply Hd. f_equal. field. repeat split; lra.
    + unfold mJ. apply divide_ok. apply Rmult_integral_contrapositive_currified; lra.
    + unfold mJ. rewrite divide_ok; [f_equal; field; repeat split; lra|].
      apply Hd; apply Rmult_integral_contrapositive_currified; lra.
  - intros l1 l2 E1 E2 J1 J2 f1 f2 Hl. rewrite !HeV, !HJ, !HHz by lra.
    intros [= <-] [= <-] [= <-] [= <-] [= <-] [= <-]. split; [|split].
    + apply Hdec; [|assumption]. apply Rmult_lt_0_compat; apply Rdiv_lt_0_compat; lra.
    + apply (Hdec (h * c) (l1 * nm) (l2 * nm)); [now apply Rmult_lt_0_compat|].
      split; [apply Rmult_lt_0_compat; lra|]. apply Rmult_lt_compat_r; lra.
    + apply Hdec; [|assumption]. apply Rdiv_lt_0_compat; lra.
  - unfold eVnm, nmJ, nmHz.
    rewrite (as_eV _ _ _ _ _ K), (as_nm _ _ _ _ _ K), (si_nm _ _ _ _ _ K), (as_nms _ _ _ _ _ Hf K).
    cbn [bindR]. unfold divide. rewrite Rmult_0_l. destruct (Req_EM_T 0 0); [auto|lra].
Qed.
Print Assumptions C12_photon_conversions.

Definition photon_table : table :=
  [(t "eV", 16 / 100); (t "nm", / 1000000000); (t "s", 1)].
Lemma photon_known : knows photon_table (16 / 100) (/ 1000000000).
Proof. unfold knows. repeat split; try reflexivity; lra. Qed.
Example C12_case :
  knows photon_table (16 / 100) (/ 1000000000) /\ reads_minus_one ex_float /\ (0 < 1 < 2) /\ 500 <> 0.
Proof. split; [exact photon_known|]. split; [reflexivity|]. lra. Qed.

(** * C13: spectral conversions *)

Lemma scale_spec K ys xs : length ys = length xs ->
  scale K ys xs = Ok (map (fun p => fst p * K / snd p ^ 2) (combine ys xs)).
Proof.
  revert xs. induction ys as [|y ys IH]; intros [|x xs] H; try discriminate; [reflexivity|].
  injection H as H. cbn [scale combine map fst snd]. rewrite (IH _ H). reflexivity.
Qed.
Lemma each_spec f g l : (forall x, In x l -> f x = Ok (g x)) -> each f l = Ok (map g l).
Proof.
  induction l as [|x l IH]; intros H; [reflexivity|]. cbn [each map].
  rewrite H by now left. cbn [bindR]. rewrite IH; [reflexivity|]. intros z Hz. apply H. now right.
Qed.

Lemma spectral_generic (f : R -> res R) K x y : 0 < K ->
  (forall v, v <> 0 -> f v = Ok (K / v)) ->
  Forall (fun v => 0 < v) x -> length y = length x ->
  each f x = Ok (map (fun v => K / v) x) /\
  scale K y (map (fun v => K / v) x) = Ok (map (fun p => fst p * snd p ^ 2 / K) (combine y x)).
Proof.
  intros HK Hf Hx Hl. rewrite Forall_forall in Hx. split.
  - apply each_spec. intros v Hv. apply Hf. apply Rgt_not_eq, Hx, Hv.
  - rewrite scale_spec by now rewrite map_length. f_equal.
    revert x Hx Hl. induction y as [|b y IH]; intros [|a x] Hx Hl; try discriminate; [reflexivity|].
    injection Hl as Hl. cbn [combine map fst snd]. f_equal.
    + assert (0 < a) by (apply Hx; now left). field. split; lra.
    + apply IH; [|assumption]. intros z Hz. apply Hx. now right.
Qed.

(** Spec: the pairs of the converted spectrum are the old ones in reverse order,
    the new coordinate being [K/x] and the value transformed so that
    y |dx| = y' |dx'|, that is y' = y |dx/dx'| with dx/dx' = -K/x'^2. *)
Definition converted (K : R) (x y x' y' : list R) : Prop :=
  length x' = length x /\ length y' = length y /\
  forall i a b, nth_error (rev x) i = Some a -> nth_error (rev y) i = Some b ->
    nth_error x' i = Some (K / a) /\
    exists b', nth_error y' i = Some b' /\ b' * (K / a ^ 2) = b.

Lemma nth_error_map' {A B} (f : A -> B) l i : nth_error (map f l) i = option_map f (nth_error l i).
Proof. revert i. induction l; intros [|i]; simpl; auto. Qed.
Lemma combine_rev {A B} (l : list A) (m : list B) : length l = length m ->
  combine (rev l) (rev m) = rev (combine l m).
Proof.
  revert m. induction l as [|a l IH]; intros [|b m] H; try discriminate; [reflexivity|].
  injection H as H. simpl. rewrite <- IH by assumption.
  assert (E : length (rev l) = length (rev m)) by now rewrite !rev_length.
  revert E. generalize (rev l), (rev m). clear. intros l. induction l as [|x l IH]; intros [|y m] E; try discriminate; [reflexivity|].
  simpl. f_equal. apply IH. now injection E.
Qed.
Lemma nth_error_combine {A B} (l : list A) (m : list B) i a b :
  nth_error l i = Some a -> nth_error m i = Some b -> nth_error (combine l m) i = Some (a, b).
Proof.
  revert m i. induction l as [|x l IH]; intros [|y m] [|i] Ha Hb; simpl in *; try discriminate; [congruence|auto].
Qed.

Lemma converted_ok K x y : 0 < K -> Forall (fun v => 0 < v) x -> length y = length x ->
  converted K x y (rev (map (fun v => K / v) x)) (rev (map (fun p => fst p * snd p ^ 2 / K) (combine y x))).
Proof.
  intros HK Hx Hl. split; [|split].
  - now rewrite rev_length, map_length.
  - rewrite rev_length, map_length, combine_length. lia.
  - intros i a b Ha Hb. rewrite <- !map_rev, <- combine_rev, !nth_error_map' by assumption.
    rewrite Ha, (nth_error_combine _ _ _ _ _ Hb Ha). cbn [option_map fst snd]. split; [reflexivity|].
    eexists. split; [reflexivity|].
    assert (0 < a). { rewrite Forall_forall in Hx. apply Hx. apply in_rev. eapply nth_error_In, Ha. }
    field. split; lra.
Qed.

Lemma sorted_reverse K x : 0 < K -> Forall (fun v => 0 < v) x -> StronglySorted Rlt x ->
  StronglySorted Rlt (rev (map (fun v => K / v) x)).
Proof.
  intros HK Hx Hs. induction Hs as [|a x Hs IH Ha]; simpl; [constructor|].
  inversion Hx as [|? ? Hpa Hx']; subst. specialize (IH Hx').
  assert (Hall : Forall (fun w => w < K / a) (rev (map (fun v => K / v) x))).
  { rewrite Forall_forall in *. intros w Hw. apply in_rev, in_map_iff in Hw as (v & <- & Hv).
    specialize (Ha v Hv). specialize (Hx' v Hv). apply Rmult_lt_compat_l; [assumption|].
    apply Rinv_lt_contravar; [|assumption]. now apply Rmult_lt_0_compat. }
  revert IH Hall. generalize (rev (map (fun v => K / v) x)) as m. clear.
  induction m as [|b m IHm]; intros Hs Hall; simpl; [repeat constructor|].
  inversion Hs; inversion Hall; subst. constructor; [auto|].
  apply Forall_app. split; [assumption|]. repeat constructor. assumption.
Qed.

Lemma generic_round K x y : 0 < K -> Forall (fun v => 0 < v) x -> length y = length x ->
  let x' := rev (map (fun v => K / v) x) in
  let y' := rev (map (fun p => fst p * snd p ^ 2 / K) (combine y x)) in
  Forall (fun v => 0 < v) x' /\ length y' = length x' /\
  rev (map (fun v => K / v) x') = x /\ rev (map (fun p => fst p * snd p ^ 2 / K) (combine y' x')) = y.
Proof.
  intros HK Hx Hl x' y'.
  assert (L : length y' = length x').
  { unfold x', y'. rewrite !rev_length, !map_length, combine_length. lia. }
  split; [|split; [assumption|split]].
  - rewrite Forall_forall in *. intros w Hw. apply in_rev, in_map_iff in Hw as (v & <- & Hv).
    apply Rdiv_lt_0_compat; auto.
  - unfold x'. rewrite map_rev, rev_involutive, map_map.
    clear - Hx HK. induction Hx as [|a x Ha _ IH]; simpl; [reflexivity|]. rewrite IH. f_equal. field. split; lra.
  - rewrite <- map_rev, <- combine_rev by assumption. unfold x', y'. rewrite !rev_involutive. clear x' y' L.
    revert x Hx Hl. induction y as [|b y IH]; intros [|a x] Hx Hl; try discriminate; [reflexivity|].
    injection Hl as Hl. inversion Hx; subst. cbn [combine map fst snd]. f_equal; [field; lra|now apply IH].
Qed.

(** For every spectrum on positive wavelengths, the conversions succeed, keep
    y |dx| point by point, give a strictly increasing coordinate if the wavelengths
    are strictly increasing, and applied twice give the spectrum back. *)
Theorem C13_spectral_conversion :
  forall to_float h c tb q nm x y,
    knows tb q nm -> reads_minus_one to_float -> 0 < h -> 0 < c ->
    Forall (fun v => 0 < v) x -> length y = length x ->
    (exists x' y', spectral_nm_ev to_float h c tb x y = Ok (x', y') /\
       converted (h * c / (q * nm)) x y x' y' /\
       (StronglySorted Rlt x -> StronglySorted Rlt x') /\
       spectral_nm_ev to_float h c tb x' y' = Ok (x, y)) /\
    (exists x' y', spectral_nm_hz to_float c tb x y = Ok (x', y') /\
       converted (c / nm) x y x' y' /\
       (StronglySorted Rlt x -> StronglySorted Rlt x') /\
       spectral_nm_hz to_float c tb x' y' = Ok (x, y)).
Proof.
  intros fl h c tb q nm x y Hk Hf Hh Hc Hx Hl.
  assert (0 < q /\ 0 < nm) as [Hq Hn] by (unfold knows in Hk; tauto).
  assert (HK1 : 0 < h * c / (q * nm)).
  { apply Rdiv_lt_0_compat; apply Rmult_lt_0_compat; assumption. }
  assert (HK2 : 0 < c / nm) by now apply Rdiv_lt_0_compat.
  assert (G1 : forall v, v <> 0 -> eVnm fl h c tb v = Ok (h * c / (q * nm) / v)).
  { intros v Hv. unfold eVnm. rewrite (as_eV _ _ _ _ _ Hk), (as_nm _ _ _ _ _ Hk). cbn [bindR].
    rewrite divide_ok by assumption. f_equal. field. repeat split; lra. }
  assert (G2 : forall v, v <> 0 -> nmHz fl c tb v = Ok (c / nm / v)).
  { intros v Hv. unfold nmHz. rewrite (as_nms _ _ _ _ _ Hf Hk). apply divide_ok, Hv. }
  assert (S1 : forall x y, Forall (fun v => 0 < v) x -> length y = length x ->
    spectral_nm_ev fl h c tb x y = Ok (rev (map (fun v => h * c / (q * nm) / v) x),
       rev (map (fun p => fst p * snd p ^ 2 / (h * c / (q * nm))) (combine y x)))).
  { intros x0 y0 H0 L0. unfold spectral_nm_ev.
    destruct (spectral_generic _ _ x0 y0 HK1 G1 H0 L0) as [E1 E2]. rewrite E1. cbn [bindR].
    rewrite (as_eVs _ _ _ _ _ Hk), (as_nms _ _ _ _ _ Hf Hk). cbn [bindR].
    replace (h / q * (c / nm)) with (h * c / (q * nm)) by (field; lra). rewrite E2. reflexivity. }
  assert (S2 : forall x y, Forall (fun v => 0 < v) x -> length y = length x ->
    spectral_nm_hz fl c tb x y = Ok (rev (map (fun v => c / nm / v) x),
       rev (map (fun p => fst p * snd p ^ 2 / (c / nm)) (combine y x)))).
  { intros x0 y0 H0 L0. unfold spectral_nm_hz.
    destruct (spectral_generic _ _ x0 y0 HK2 G2 H0 L0) as [E1 E2]. rewrite E1. cbn [bindR].
    rewrite (as_nms _ _ _ _ _ Hf Hk). cbn [bindR]. rewrite E2. reflexivity. }
  split.
  - destruct (generic_round _ x y HK1 Hx Hl) as (P1 & P2 & P3 & P4).
    eexists _, _. split; [now apply S1|]. split; [now apply converted_ok|].
    split; [intros; now apply sorted_reverse|]. rewrite S1 by assumption. now rewrite P3, P4.
  - destruct (generic_round _ x y HK2 Hx Hl) as (P1 & P2 & P3 & P4).
    eexists _, _. split; [now apply S2|]. split; [now apply converted_ok|].
    split; [intros; now apply sorted_reverse|]. rewrite S2 by assumption. now rewrite P3, P4.
Qed.
Print Assumptions C13_spectral_conversion.
Example C13_case :
  Forall (fun v => 0 < v) [400; 500; 700] /\ length [1; 2; 3] = length [400; 500; 700] /\
  StronglySorted Rlt [400; 500; 700].
Proof. repeat split; repeat constructor; lra. Qed.

(** * C14: compare_floats *)

(** Absolute mode: true exactly when the numbers differ by less than the precision;
    relative mode: for positive numbers, exactly when the larger is less than
    (1 + precision) times the smaller.  Both are symmetric. *)
Theorem C14_compare_floats_partial :
  forall a b p r,
    (exists v, compare_floats a b p None = Ok v /\ (v = true <-> - p < a - b < p)) /\
    compare_floats a b p None = compare_floats b a p None /\
    compare_floats a b p (Some r) = compare_floats b a p (Some r) /\
    (0 < a -> 0 < b ->
       exists v, compare_floats a b p (Some r) = Ok v /\
         (v = true <-> a < b * (1 + r) /\ b < a * (1 + r))).
Proof.
  intros a b p r. split; [|split; [|split]].
  - unfold compare_floats. eexists. split; [reflexivity|].
    destruct (Rlt_dec _ _) as [H|H].
    + split; [|reflexivity]. intros _. apply Rabs_def2 in H. lra.
    + split; [discriminate|]. intros H1. exfalso. apply H. apply Rabs_def1; lra.
  - simpl. now rewrite Rabs_minus_sym.
  - simpl. now rewrite Rmax_comm, Rmin_comm.
  - intros Ha Hb. unfold compare_floats.
    assert (Hmin : 0 < Rmin a b) by (unfold Rmin; destruct (Rle_dec a b); lra).
    rewrite divide_ok by lra. cbn [bindR]. eexists. split; [reflexivity|].
    assert (Hiff : Rmax a b / Rmin a b - 1 < r <-> Rmax a b < Rmin a b * (1 + r)).
    { split; intros H.
      - assert (H2 : Rmax a b / Rmin a b < 1 + r) by lra.
        apply (Rmult_lt_compat_l (Rmin a b)) in H2; [|assumption].
        replace (Rmin a b * (Rmax a b / Rmin a b)) with (Rmax a b) in H2 by (field; lra). assumption.
      - assert (Rmax a b / Rmin a b < 1 + r); [|lra].
        apply (Rmult_lt_reg_l (Rmin a b)); [assumption|].
        replace (Rmin a b * (Rmax a b / Rmin a b)) with (Rmax a b) by (field; lra). assumption. }
    assert (Hiff2 : Rmax a b < Rmin a b * (1 + r) <-> a < b * (1 + r) /\ b < a * (1 + r)).
    { unfold Rmax, Rmin. destruct (Rle_dec a b); split; intros H; try split; try nra;
      destruct (Rle_dec 0 r); nra. }
    destruct (Rlt_dec _ _) as [H|H].
    + split; [intros _; tauto|reflexivity].
    + split; [discriminate|]. tauto.
Qed.
Print Assumptions C14_compare_floats_partial.
Example C14_case : compare_floats 10 11 0 (Some (1 / 5)) = Ok true.
Proof.
  simpl. unfold Rmax, Rmin. destruct (Rle_dec 10 11); [|lra]. rewrite divide_ok by lra. simpl.
  destruct (Rlt_dec _ _); [reflexivity|]. lra.
Qed.

(** With a relative precision, numbers of opposite sign always compare equal, for
    any non-negative precision; negative numbers too; a zero raises. *)
Theorem C14_compare_floats_refuted :
  (forall a b p r, a < 0 < b -> 0 <= r -> compare_floats a b p (Some r) = Ok true) /\
  (forall a b p r, a < b -> b < 0 -> 0 <= r -> compare_floats a b p (Some r) = Ok true) /\
  (forall b p r, 0 <= b -> compare_floats 0 b p (Some r) = Err ZeroDivisionError) /\
  exists a b p r, 0 < r /\ Rabs (a - b) > 1000 * Rabs a /\ compare_floats a b p (Some r) = Ok true.
Proof.
  assert (G1 : forall a b p r, a < 0 < b -> 0 <= r -> compare_floats a b p (Some r) = Ok true).
  { intros a b p r H Hr. simpl. rewrite Rmax_right, Rmin_left by lra. rewrite divide_ok by lra. simpl.
    destruct (Rlt_dec _ _) as [_|n]; [reflexivity|]. exfalso. apply n.
    assert (b / a < 0). { assert (/ a < 0) by (apply Rinv_lt_0_compat; lra). unfold Rdiv. nra. } lra. }
  split; [exact G1|]. split; [|split].
  - intros a b p r H Hb Hr. simpl. rewrite Rmax_right, Rmin_left by lra. rewrite divide_ok by lra. simpl.
    destruct (Rlt_dec _ _) as [_|n]; [reflexivity|]. exfalso. apply n.
    assert (b / a < 1); [|lra]. replace (b / a) with (- b / - a) by (field; lra).
    apply (Rmult_lt_reg_r (- a)); [lra|]. unfold Rdiv. rewrite Rmult_assoc, Rinv_l by lra. lra.
  - intros b p r Hb. simpl. rewrite Rmin_left by lra. unfold divide. destruct (Req_EM_T 0 0); [reflexivity|lra].
  - exists (-1), 2000, 0, (1 / 100). split; [lra|]. split; [|apply G1; lra].
    rewrite !Rabs_left by lra. lra.
Qed.
Print Assumptions C14_compare_floats_refuted.

(** * C15: sensibleUnits *)

(** Zero is printed; every other value raises, whatever the dimension. *)
Theorem C15_sensible_units_partial :
  forall d, sensibleUnits d 0 = Ok (false, 0, []).
Proof.
  intros d. unfold sensibleUnits. destruct (Rlt_dec 0 0); [lra|]. destruct (Req_EM_T 0 0); [reflexivity|lra].
Qed.
Print Assumptions C15_sensible_units_partial.
Theorem C15_sensible_units_refuted :
  forall d v, v <> 0 -> exists e, sensibleUnits d v = Err e.
Proof.
  intros d v Hv. unfold sensibleUnits. destruct (Req_EM_T v 0); [contradiction|]. destruct d; eauto.
Qed.
Print Assumptions C15_sensible_units_refuted.
Example C15_case : sensibleUnits [t "m"; t "mm"] (1 / 1000) = Err TypeError.
Proof. unfold sensibleUnits. destruct (Req_EM_T _ _); [lra|reflexivity]. Qed.

(** * C96: the dimension of a unit *)

(** [guess_dimension] answers exactly when one dimension knows the unit, and then with
    that dimension. *)
Theorem C96_guess_dimension :
  forall dims u n,
    guess_dimension dims u = Ok n <->
    exists before units after, dims = before ++ (n, units) :: after /\ In u units /\
      forall d, In d (before ++ after) -> ~ In u (snd d).
Proof.
  intros dims u n. unfold guess_dimension.
  assert (Hb : forall d : text * list text, existsb (text_eqb u) (snd d) = true <-> In u (snd d)).
  { intros d. rewrite existsb_exists. split; [intros (x & Hx & E); apply text_eqb_eq in E; now subst|].
    intros H. exists u. split; [assumption|now apply text_eqb_eq]. }
  set (f := fun d : text * list text => existsb (text_eqb u) (snd d)) in *.
  assert (Hnil : forall l, filter f l = [] <-> forall d, In d l -> ~ In u (snd d)).
  { intros l. split.
    - intros H d Hd Hu. assert (In d (filter f l)) by (apply filter_In; split; [assumption|now apply Hb]). now rewrite H in H0.
    - induction l as [|d l IH]; intros H; simpl; [reflexivity|].
      assert (f d = false) as -> by (apply not_true_is_false; intros E; apply Hb in E; now apply (H d (or_introl eq_refl))).
      apply IH. intros d' Hd'. apply H. now right. }
  split.
  - intros H. destruct (filter f dims) as [|d [|d' l]] eqn:E; try discriminate. injection H as <-.
    assert (G : forall l, filter f l = [d] -> exists l1 l2, l = l1 ++ d :: l2 /\ f d = true /\ filter f l1 = [] /\ filter f l2 = []).
    { clear. induction l as [|a l IH]; simpl; [discriminate|]. destruct (f a) eqn:Ea.
      - intros [= <- Hl]. exists [], l. repeat split; auto.
      - intros Hl. destruct (IH Hl) as (l1 & l2 & -> & H1 & H2 & H3). exists (a :: l1), l2. simpl. rewrite Ea. auto. }
    destruct (G dims E) as (l1 & l2 & -> & H1 & H2 & H3). exists l1, (snd d), l2.
    split; [now destruct d|]. split; [now apply Hb|]. intros x Hx. apply in_app_iff in Hx.
    destruct Hx as [Hx|Hx]; [now apply (proj1 (Hnil l1) H2)|now apply (proj1 (Hnil l2) H3)].
  - intros (l1 & us & l2 & -> & Hu & Ho). rewrite filter_app. simpl.
    assert (f (n, us) = true) as -> by now apply Hb.
    assert (filter f l1 = []) as -> by (apply Hnil; intros d Hd; apply Ho, in_or_app; now left).
    assert (filter f l2 = []) as -> by (apply Hnil; intros d Hd; apply Ho, in_or_app; now right).
    reflexivity.
Qed.
Print Assumptions C96_guess_dimension.
Example C96_case :
  guess_dimension [(t "length", [t "m"; t "nm"]); (t "energy", [t "eV"; t "J"])] (t "nm") = Ok (t "length") /\
  guess_dimension [(t "length", [t "m"; t "nm"]); (t "energy", [t "eV"; t "J"])] (t "s") = Err AssertionError.
Proof. split; reflexivity. Qed.

(** Properties C64 (locations written and read back) and C103 (element names of the
    quasi-3D netlist). *)
From Coq Require Import Reals String Ascii List Bool ZArith Arith Decimal DecimalString DecimalNat Lra Lia.
From Verif Require Import Common NpModel MatStrModel MatStrProps SpiceModel SpiceProps.
From Coq Require Import List.
Import ListNotations.
Open Scope R_scope.
Open Scope list_scope.

(** * Decimal numbers *)

(** Digits and the number they stand for. *)
Definition is_digit (c : ascii) : Prop := (48 <= nat_of_ascii c <= 57)%nat.
Definition value (s : text) : nat := fold_left (fun a c => 10 * a + (nat_of_ascii c - 48))%nat s 0%nat.

Definition digit_char (c : ascii) : Prop :=
  In c ["0";"1";"2";"3";"4";"5";"6";"7";"8";"9"]%char.
Lemma is_digit_char c : is_digit c -> digit_char c.
Proof.
  unfold is_digit, digit_char. intros H. rewrite <- (ascii_nat_embedding c).
  assert (E : (exists k, k <= 9 /\ nat_of_ascii c = 48 + k)%nat) by (exists (nat_of_ascii c - 48)%nat; lia).
  destruct E as (k & K & ->). do 10 (destruct k as [|k]; [simpl; tauto|]). lia.
Qed.

Lemma acc_value s : Forall digit_char s ->
  exists u, NilEmpty.uint_of_string (string_of_list_ascii s) = Some u /\
    forall acc, Nat.of_uint_acc u acc = fold_left (fun a c => 10 * a + (nat_of_ascii c - 48))%nat s acc.
Proof.
  induction s as [|c s IH]; intros F.
  - exists Decimal.Nil. split; [reflexivity|]. reflexivity.
  - inversion F as [|? ? Hc Fs]; subst. destruct (IH Fs) as (u & E & V). clear IH F.
    cbn [string_of_list_ascii NilEmpty.uint_of_string fold_left]. rewrite E.
    assert (T : forall a, Nat.tail_mul 10 a = (10 * a)%nat) by (intros; apply Nat.tail_mul_spec).
    unfold digit_char in Hc. cbn [In] in Hc.
    repeat (destruct Hc as [<-|Hc]; [eexists; split; [reflexivity|intros acc; cbn [Nat.of_uint_acc]; rewrite V, T;
      f_equal; cbn [nat_of_ascii N_of_ascii N_of_digits N.to_nat]; unfold nat_of_ascii; simpl; lia]|]).
    destruct Hc.
Qed.
Lemma int_of_digits s : s <> [] -> Forall digit_char s -> int_of s = Ok (value s).
Proof.
  intros N F. destruct (acc_value s F) as (u & E & V). unfold int_of. destruct s as [|c s]; [contradiction|].
  rewrite E. f_equal. exact (V 0%nat).
Qed.
Lemma str_nat_digits n : Forall digit_char (str_nat n).
Proof.
  unfold str_nat. generalize (Nat.to_uint n). intros u.
  assert (G : forall u, Forall digit_char (list_ascii_of_string (NilEmpty.string_of_uint u))).
  { clear. unfold digit_char. induction u; simpl; constructor; auto; simpl; tauto. }
  destruct u; try exact (G _). simpl. constructor; [unfold digit_char; simpl; tauto|constructor].
Qed.
Lemma to_uint_nonnil n : Nat.to_uint n <> Decimal.Nil.
Proof.
  intros E. assert (H : n = 0%nat) by (rewrite <- (DecimalNat.Unsigned.of_to n), E; reflexivity).
  subst. discriminate E.
Qed.
Lemma str_nat_nonnil n : str_nat n <> [].
Proof. unfold str_nat. destruct (Nat.to_uint n); discriminate. Qed.
Lemma str_nat_value n : value (str_nat n) = n.
Proof.
  destruct (acc_value _ (str_nat_digits n)) as (u & E & V). specialize (V 0%nat). fold (value (str_nat n)) in V. rewrite <- V.
  unfold str_nat in E. rewrite string_of_list_ascii_of_string in E.
  pose proof (to_uint_nonnil n) as NN. pose proof (NilZero.usu _ NN) as U.
  unfold NilZero.uint_of_string in U.
  assert (X : NilEmpty.uint_of_string (NilZero.string_of_uint (Nat.to_uint n)) = Some (Nat.to_uint n)).
  { destruct (Nat.to_uint n); try exact U; contradiction. }
  rewrite X in E. injection E as <-. apply DecimalNat.Unsigned.of_to.
Qed.
Lemma value_zeros k s : value (repeat "0"%char k ++ s) = value s.
Proof. induction k as [|k IH]; [reflexivity|]. exact IH. Qed.
Lemma zfill3_value n : value (zfill3 n) = n.
Proof. unfold zfill3. rewrite value_zeros. apply str_nat_value. Qed.
Lemma zfill3_digits n : Forall digit_char (zfill3 n).
Proof.
  unfold zfill3. apply Forall_app. split; [|apply str_nat_digits].
  apply Forall_forall. intros c H. apply repeat_spec in H. subst. unfold digit_char. simpl. tauto.
Qed.
Lemma zfill3_length n : (3 <= length (zfill3 n))%nat.
Proof. unfold zfill3. rewrite app_length, repeat_length. lia. Qed.
Lemma digits_no_underscore s : Forall digit_char s -> ~ In "_"%char s.
Proof.
  intros F H. rewrite Forall_forall in F. apply F in H. unfold digit_char in H. simpl in H.
  repeat (destruct H as [H|H]; [discriminate H|]). exact H.
Qed.

(** The number of digits. *)
Lemma value_app s c : value (s ++ [c]) = (10 * value s + (nat_of_ascii c - 48))%nat.
Proof. unfold value. now rewrite fold_left_app. Qed.
Lemma digit_small c : digit_char c -> (nat_of_ascii c - 48 <= 9)%nat.
Proof. unfold digit_char. simpl. intros H. repeat (destruct H as [<-|H]; [unfold nat_of_ascii; simpl; lia|]). destruct H. Qed.
Lemma value_bound s : Forall digit_char s -> (value s < 10 ^ length s)%nat.
Proof.
  induction s as [|c s IH] using rev_ind; intros F; [simpl; unfold value; simpl; lia|].
  apply Forall_app in F as [F1 F2]. inversion F2; subst. rewrite value_app, app_length, Nat.pow_add_r.
  pose proof (digit_small c H1). specialize (IH F1). simpl. lia.
Qed.
Lemma nzhead_D0 u v : Decimal.nzhead u <> Decimal.D0 v.
Proof. induction u; simpl; try discriminate. exact IHu. Qed.
(** A printed number has no leading zero unless it is zero. *)
Lemma str_nat_zero_head n c s : str_nat n = c :: s -> (n <> 0)%nat -> c <> "0"%char.
Proof.
  intros E N C. subst c.
  assert (H : Nat.to_uint n = Decimal.unorm (Nat.to_uint n)).
  { rewrite <- DecimalNat.Unsigned.to_of, DecimalNat.Unsigned.of_to. reflexivity. }
  unfold str_nat in E. pose proof (to_uint_nonnil n) as NN.
  destruct (Nat.to_uint n) as [|u|u|u|u|u|u|u|u|u|u] eqn:U; simpl in E; try discriminate E; try contradiction.
  unfold Decimal.unorm in H. simpl in H.
  destruct (Decimal.nzhead u) eqn:Z; try discriminate H.
  - injection H as H. subst u. apply N. rewrite <- (DecimalNat.Unsigned.of_to n), U. reflexivity.
  - exact (nzhead_D0 _ _ Z).
Qed.
Lemma str_nat_length n k : (n < 10 ^ k)%nat -> (0 < k)%nat -> (length (str_nat n) <= k)%nat.
Proof.
  intros H K. destruct (Nat.eq_dec n 0) as [->|N]; [simpl; lia|].
  destruct (str_nat n) as [|c s] eqn:E; [simpl; lia|]. pose proof (str_nat_zero_head n c s E N) as C.
  destruct (le_lt_dec (length (c :: s)) k) as [L|L]; [exact L|exfalso].
  pose proof (str_nat_value n) as V. rewrite E in V. pose proof (str_nat_digits n) as D. rewrite E in D. pose proof (Forall_inv D) as H2.
  assert (G : forall s a, (a * 10 ^ length s <= fold_left (fun a c => 10 * a + (nat_of_ascii c - 48)) s a)%nat).
  { clear. induction s as [|c s IH]; intros a; simpl; [lia|]. specialize (IH (10 * a + (nat_of_ascii c - 48))%nat). simpl in IH. nia. }
  assert (1 <= nat_of_ascii c - 48)%nat.
  { unfold digit_char in H2. simpl in H2. destruct H2 as [<-|H2]; [contradiction|].
    repeat (destruct H2 as [<-|H2]; [unfold nat_of_ascii; simpl; lia|]). destruct H2. }
  unfold value in V. cbn [fold_left] in V. specialize (G s (10 * 0 + (nat_of_ascii c - 48))%nat).
  simpl in L. assert (10 ^ k <= 10 ^ length s)%nat by (apply Nat.pow_le_mono_r; lia).
  nia.
Qed.
Lemma zfill3_length_small n : (n < 1000)%nat -> length (zfill3 n) = 3%nat.
Proof.
  intros H. pose proof (str_nat_length n 3 ltac:(simpl; lia) ltac:(lia)). unfold zfill3. rewrite app_length, repeat_length. lia.
Qed.
Lemma str_nat_length_small n : (n < 10)%nat -> length (str_nat n) = 1%nat.
Proof.
  intros H. pose proof (str_nat_length n 1 ltac:(simpl; lia) ltac:(lia)). pose proof (str_nat_nonnil n).
  destruct (str_nat n) as [|c [|c' s]]; simpl in *; try lia; try contradiction. 
Qed.

(** * C64 *)

(** The table heading of a top node, as SPICE prints it. *)
Definition heading (c : string) (j x y : nat) : text := t "v(" ++ t c ++ t "_" ++ loc j x y ++ t ")".

Lemma parse_pieces a b c : Forall digit_char a -> Forall digit_char b -> Forall digit_char c ->
  a <> [] -> b <> [] -> c <> [] ->
  split_on "_"%char (a ++ "_"%char :: b ++ "_"%char :: c) = [a; b; c].
Proof.
  intros Fa Fb Fc _ _ _. rewrite split_on_app by now apply digits_no_underscore.
  rewrite split_on_app by now apply digits_no_underscore. rewrite split_on_none by now apply digits_no_underscore. reflexivity.
Qed.

(** What is read back from a heading when the text between the fourth and thirteenth
    characters is the location without the last [k] digits of its last number. *)
Lemma parse_heading j x y c : Forall digit_char c -> c <> [] ->
  firstn 9 (loc j x y ++ t ")") = str_nat j ++ "_"%char :: zfill3 x ++ "_"%char :: c ->
  parse_loc (heading "t" j x y) = Ok (j, x, value c).
Proof.
  intros Fc Nc E. unfold parse_loc.
  replace (skipn 4 (heading "t" j x y)) with (loc j x y ++ t ")") by reflexivity. rewrite E.
  assert (Z : zfill3 x <> []) by (pose proof (zfill3_length x); destruct (zfill3 x); simpl in *; [lia|discriminate]).
  rewrite parse_pieces; auto using str_nat_digits, zfill3_digits, str_nat_nonnil.
  unfold item. cbn [nth_error bindR].
  rewrite int_of_digits by auto using str_nat_digits, str_nat_nonnil. cbn [bindR].
  rewrite int_of_digits by auto using zfill3_digits. cbn [bindR].
  rewrite int_of_digits by auto. cbn [bindR]. now rewrite str_nat_value, zfill3_value.
Qed.

(** C64 (partial).  For fewer than ten junctions and pixel coordinates below a thousand
    the location read back from the heading of a table is the location printed.
    Missing: larger circuits. *)
Theorem C64_location_partial j x y : (j < 10)%nat -> (x < 1000)%nat -> (y < 1000)%nat ->
  parse_loc (heading "t" j x y) = Ok (j, x, y).
Proof.
  intros Hj Hx Hy. rewrite (parse_heading j x y (zfill3 y)).
  - now rewrite zfill3_value.
  - apply zfill3_digits.
  - pose proof (zfill3_length y). destruct (zfill3 y); simpl in *; [lia|discriminate].
  - unfold loc. rewrite <- firstn_all2 with (n := 9%nat) (l := str_nat j ++ "_"%char :: zfill3 x ++ "_"%char :: zfill3 y) at 2.
    + rewrite firstn_app. 
      replace (9 - length (str_nat j ++ "_"%char :: zfill3 x ++ "_"%char :: zfill3 y))%nat with 0%nat.
      * simpl firstn at 2. now rewrite app_nil_r.
      * rewrite !app_length. simpl length. rewrite app_length. simpl length.
        rewrite (str_nat_length_small j), (zfill3_length_small x), (zfill3_length_small y) by assumption. reflexivity.
    + rewrite !app_length. simpl length. rewrite app_length. simpl length.
      rewrite (str_nat_length_small j), (zfill3_length_small x), (zfill3_length_small y) by assumption. lia.
Qed.
Example C64_location_example : parse_loc (heading "t" 2 17 345) = Ok (2, 17, 345)%nat.
Proof. reflexivity. Qed.

(** As soon as the location has one character more, the last digit of y is lost:
    rows of ten pixels are stored at the same place. *)
Theorem C64_location_overflow j x y : length (loc j x y) = 10%nat ->
  parse_loc (heading "t" j x y) = Ok (j, x, (y / 10)%nat).
Proof.
  intros L. pose proof (zfill3_length y) as Ly. pose proof (zfill3_digits y) as Dy. pose proof (zfill3_value y) as Vy.
  destruct (exists_last (l := zfill3 y)) as (r & d & E); [intros Z; rewrite Z in Ly; simpl in Ly; lia|].
  rewrite E in Dy, Vy, Ly. apply Forall_app in Dy as [Dr Dd]. pose proof (digit_small d (Forall_inv Dd)).
  rewrite app_length in Ly. simpl in Ly. rewrite value_app in Vy.
  rewrite (parse_heading j x _ r).
  - f_equal. f_equal. symmetry. rewrite <- Vy at 1. rewrite Nat.mul_comm, Nat.add_comm, Nat.div_add by lia. rewrite Nat.div_small by lia. reflexivity.
  - exact Dr.
  - intros ->. simpl in Ly. lia.
  - unfold loc in *. rewrite E in *.
    set (a := str_nat j) in *. set (b := zfill3 x) in *.
    assert (L9 : length (a ++ "_"%char :: b ++ "_"%char :: r) = 9%nat).
    { rewrite !app_length in L. simpl in L. rewrite !app_length in L. simpl in L. rewrite !app_length in L. simpl in L.
      rewrite app_length. simpl. rewrite app_length. simpl. lia. }
    replace ((a ++ "_"%char :: b ++ "_"%char :: r ++ [d]) ++ t ")") with ((a ++ "_"%char :: b ++ "_"%char :: r) ++ d :: t ")").
    + rewrite firstn_app, L9. simpl firstn at 2. rewrite app_nil_r. apply firstn_all2. lia.
    + rewrite <- !app_assoc. simpl. rewrite <- !app_assoc. simpl. rewrite <- app_assoc. reflexivity.
Qed.
Example C64_location_overflow_example : length (loc 10 3 57) = 10%nat /\ parse_loc (heading "t" 10 3 57) = Ok (10, 3, 5)%nat.
Proof. split; reflexivity. Qed.

(** Two junction nodes of the eleventh junction are read back as one. *)
Theorem C64_location_refuted : exists j x y y', y <> y' /\
  parse_loc (heading "t" j x y) <> Ok (j, x, y) /\
  parse_loc (heading "t" j x y) = parse_loc (heading "t" j x y').
Proof. exists 10%nat, 0%nat, 4%nat, 5%nat. repeat split; discriminate. Qed.

(** * C103: element names are distinct *)

(** SPICE does not distinguish upper and lower case. *)
Definition lower_char (c : ascii) : ascii :=
  let n := nat_of_ascii c in if (65 <=? n)%nat && (n <=? 90)%nat then ascii_of_nat (n + 32) else c.
Definition lower (s : text) : text := map lower_char s.
Definition qnames (ls : list qline) : list text :=
  flat_map (fun l => match l with QElement n _ _ _ => [n] | QPrint _ => [] end) ls.

Lemma qnames_app a b : qnames (a ++ b) = qnames a ++ qnames b.
Proof. apply flat_map_app. Qed.
Lemma lower_app a b : lower (a ++ b) = lower a ++ lower b.
Proof. apply map_app. Qed.
Lemma lower_digits s : Forall digit_char s -> lower s = s.
Proof.
  induction 1 as [|c s H F IH]; [reflexivity|]. simpl. rewrite IH. f_equal.
  unfold digit_char in H. simpl in H. repeat (destruct H as [<-|H]; [reflexivity|]). destruct H.
Qed.
Lemma lower_loc j x y : lower (loc j x y) = loc j x y.
Proof.
  unfold loc. rewrite lower_app. cbn [lower map]. fold (lower (zfill3 x ++ "_"%char :: zfill3 y)). rewrite lower_app.
  cbn [lower map]. fold (lower (zfill3 y)).
  rewrite !lower_digits by auto using str_nat_digits, zfill3_digits. reflexivity.
Qed.

(** Texts that do not begin with a digit. *)
Definition ends (s : text) : Prop := match s with [] => True | c :: _ => ~ digit_char c end.
Lemma digits_split a b c d : Forall digit_char a -> Forall digit_char b -> ends c -> ends d -> a ++ c = b ++ d -> a = b /\ c = d.
Proof.
  revert b. induction a as [|x a IH]; intros [|y b] Fa Fb Hc Hd E; simpl in *.
  - auto.
  - subst c. inversion Fb; subst. contradiction.
  - subst d. inversion Fa; subst. contradiction.
  - injection E as -> E. inversion Fa; inversion Fb; subst. destruct (IH b) as [-> ->]; auto.
Qed.
Lemma str_nat_inj n m : str_nat n = str_nat m -> n = m.
Proof. intros H. rewrite <- (str_nat_value n), H. apply str_nat_value. Qed.
Lemma zfill3_inj n m : zfill3 n = zfill3 m -> n = m.
Proof. intros H. rewrite <- (zfill3_value n), H. apply zfill3_value. Qed.
Lemma ends_underscore s : ends ("_"%char :: s).
Proof. simpl. unfold digit_char. simpl. intuition discriminate. Qed.
Lemma loc_inj j x y j' x' y' c c' : ends c -> ends c' -> loc j x y ++ c = loc j' x' y' ++ c' ->
  j = j' /\ x = x' /\ y = y' /\ c = c'.
Proof.
  intros Hc Hc' E. unfold loc in E. rewrite <- !app_assoc in E. simpl in E. rewrite <- !app_assoc in E. simpl in E.
  apply digits_split in E as [E1 E]; auto using str_nat_digits, ends_underscore.
  injection E as E. apply digits_split in E as [E2 E]; auto using zfill3_digits, ends_underscore.
  injection E as E. apply digits_split in E as [E3 E]; auto using zfill3_digits.
  auto using str_nat_inj, zfill3_inj.
Qed.

(** The prefixes of the element names. *)
Definition prefixes : list text :=
  map t ["d1_"; "d2_"; "i"; "rshunt_"; "rtx"; "rty"; "rbx"; "rby"; "rseries"; "rcontact"; "rbusx"; "rbusy"; "rext"]%string.
Definition named (p : text) (j x y : nat) (w : text) : Prop := exists tl, ends tl /\ lower w = p ++ loc j x y ++ tl.

Lemma loc_head j x y : exists c s, loc j x y = c :: s /\ digit_char c.
Proof.
  unfold loc. pose proof (str_nat_nonnil j) as N. pose proof (str_nat_digits j) as F.
  destruct (str_nat j) as [|c s]; [contradiction|]. inversion F; subst. simpl. eauto.
Qed.
Lemma named_inj p p' j x y j' x' y' w w' : In p prefixes -> In p' prefixes -> named p j x y w -> named p' j' x' y' w' ->
  lower w = lower w' -> p = p' /\ j = j' /\ x = x' /\ y = y'.
Proof.
  intros P P' (tl & T & E) (tl' & T' & E') L. rewrite E, E' in L. clear E E'.
  assert (PE : p = p').
  { cbn [prefixes map In] in P, P'.
    repeat (destruct P as [<-|P]; [
      repeat (destruct P' as [<-|P']; [try reflexivity; exfalso; discriminate L|]); destruct P'|]).
    destruct P. }
  subst p'. apply app_inv_head in L. apply loc_inj in L as (-> & -> & -> & _); auto.
Qed.

Lemma named_plain p q j x y : lower (t q) = p -> named p j x y (t q ++ loc j x y).
Proof. intros <-. exists []. split; [exact I|]. now rewrite lower_app, lower_loc, app_nil_r. Qed.
Lemma named_to p q j x y r : lower (t q) = p -> named p j x y (t q ++ loc j x y ++ t "to" ++ r).
Proof.
  intros <-. exists (lower (t "to" ++ r)). split.
  - simpl. unfold digit_char. simpl. intuition discriminate.
  - now rewrite !lower_app, lower_loc.
Qed.

(** The names written for one junction. *)
Lemma junction_named k n j x y s q xm ym c :
  exists ps, NoDup ps /\ incl ps prefixes /\
  Forall2 (fun p w => named p j x y w) ps (qnames (create_junction k n j x y s q xm ym c)).
Proof.
  exists (map t ["d1_"; "d2_"; "i"; "rshunt_"; "rtx"; "rty"; "rbx"; "rby"; "rseries"]%string ++
    (if (j =? 0)%nat then match k with Normal => [] | Finger => map t ["rcontact"; "rbusx"; "rbusy"]%string
                          | Bus => map t ["rcontact"; "rbusx"; "rbusy"; "rext"]%string end else [])).
  split; [|split].
  - destruct (j =? 0)%nat; [destruct k|]; cbn [map app];
      repeat (apply NoDup_cons; [simpl; intuition discriminate|]); apply NoDup_nil.
  - intros p. destruct (j =? 0)%nat; [destruct k|]; cbn [map app prefixes In]; tauto.
  - unfold create_junction. rewrite !qnames_app. apply Forall2_app.
    + cbn [qnames flat_map app map].
      repeat (apply Forall2_cons; [first [apply named_plain; reflexivity|apply named_to; reflexivity]|]). apply Forall2_nil.
    + rewrite <- (app_nil_r (if (j =? 0)%nat then _ else _)). apply Forall2_app; [|apply Forall2_nil].
      destruct (j =? 0)%nat; [destruct k|]; cbn [qnames flat_map app map];
      repeat (apply Forall2_cons; [first [apply named_plain; reflexivity|apply named_to; reflexivity]|]); apply Forall2_nil.
Qed.
Lemma junction_names_in k n j x y s q xm ym c w : In w (qnames (create_junction k n j x y s q xm ym c)) ->
  exists p, In p prefixes /\ named p j x y w.
Proof.
  destruct (junction_named k n j x y s q xm ym c) as (ps & _ & I & F). revert I. generalize dependent (qnames (create_junction k n j x y s q xm ym c)).
  intros l F. induction F as [|p w' ps l H F IH]; intros I [].
  - subst. exists p. split; [apply I; now left|assumption].
  - apply IH; auto. intros z Hz. apply I. now right.
Qed.
Lemma junction_NoDup k n j x y s q xm ym c : NoDup (map lower (qnames (create_junction k n j x y s q xm ym c))).
Proof.
  destruct (junction_named k n j x y s q xm ym c) as (ps & N & I & F). generalize dependent (qnames (create_junction k n j x y s q xm ym c)).
  intros l F. induction F as [|p w ps l H F IH]; [constructor|]. inversion N; subst. simpl. constructor.
  - intros J. apply in_map_iff in J as (w' & E & J).
    assert (exists p', In p' ps /\ named p' j x y w') as (p' & J1 & J2).
    { clear -F J. induction F as [|a b ps l H F IH]; [destruct J|]. destruct J as [->|J]; [exists a; split; [now left|assumption]|].
      destruct (IH J) as (p' & ? & ?). exists p'. split; [now right|assumption]. }
    destruct (named_inj p p' j x y j x y w w') as [-> _]; auto; try (apply I; simpl; auto).
  - apply IH; auto. intros z Hz. apply I. now right.
Qed.

Lemma NoDup_flat_map {A B} (f : A -> list B) l : NoDup l -> (forall a, In a l -> NoDup (f a)) ->
  (forall a a' b, In a l -> In a' l -> In b (f a) -> In b (f a') -> a = a') -> NoDup (flat_map f l).
Proof.
  induction l as [|a l IH]; intros N H D; [constructor|]. inversion N; subst. simpl. apply NoDup_app_fresh.
  - apply H. now left.
  - apply IH; auto. { intros; apply H; now right. } intros a1 a2 b I1 I2. apply D; now right.
  - intros b Hb Hb'. apply in_flat_map in Hb' as (a' & I & J). assert (a = a') by (apply (D a a' b); auto; [now left|now right]).
    subst. contradiction.
Qed.
Lemma qnames_flat_map {A} (f : A -> list qline) l : qnames (flat_map f l) = flat_map (fun a => qnames (f a)) l.
Proof. induction l as [|a l IH]; [reflexivity|]. simpl. now rewrite qnames_app, IH. Qed.
Lemma map_flat_map {A B C} (g : B -> C) (f : A -> list B) l : map g (flat_map f l) = flat_map (fun a => map g (f a)) l.
Proof. induction l as [|a l IH]; [reflexivity|]. simpl. now rewrite map_app, IH. Qed.

Lemma pixel_named g x y w : In w (map lower (qnames (pixel g x y))) ->
  exists p j w', In p prefixes /\ named p j x y w' /\ w = lower w'.
Proof.
  unfold pixel, create_node. rewrite qnames_flat_map, map_flat_map. intros I. apply in_flat_map in I as (j & _ & I).
  apply in_map_iff in I as (w' & <- & I). apply junction_names_in in I as (p & ? & ?). now exists p, j, w'.
Qed.

(** C103.  For every grid, every number of junctions and every pair of masks, all
    element names of the quasi-3D netlist are distinct, even without regard to case. *)
Theorem C103_names g : NoDup (map lower (qnames (body g))).
Proof.
  unfold body. rewrite qnames_flat_map, map_flat_map. apply NoDup_flat_map; [apply seq_NoDup| |].
  - intros x _. rewrite qnames_flat_map, map_flat_map. apply NoDup_flat_map; [apply seq_NoDup| |].
    + intros y _. unfold pixel, create_node. rewrite qnames_flat_map, map_flat_map. apply NoDup_flat_map; [apply seq_NoDup| |].
      * intros j _. apply junction_NoDup.
      * intros j j' w _ _ I I'. apply in_map_iff in I as (w1 & <- & I). apply in_map_iff in I' as (w2 & E & I').
        apply junction_names_in in I as (p & P & N). apply junction_names_in in I' as (p' & P' & N').
        now destruct (named_inj _ _ _ _ _ _ _ _ _ _ P P' N N' (eq_sym E)) as (_ & -> & _).
    + intros y y' w _ _ I I'. apply pixel_named in I as (p & j & w1 & P & N & ->). apply pixel_named in I' as (p' & j' & w2 & P' & N' & E).
      now destruct (named_inj _ _ _ _ _ _ _ _ _ _ P P' N N' E) as (_ & _ & _ & ->).
  - intros x x' w _ _ I I'. rewrite qnames_flat_map, map_flat_map in I, I'.
    apply in_flat_map in I as (y & _ & I). apply in_flat_map in I' as (y' & _ & I').
    apply pixel_named in I as (p & j & w1 & P & N & ->). apply pixel_named in I' as (p' & j' & w2 & P' & N' & E).
    now destruct (named_inj _ _ _ _ _ _ _ _ _ _ P P' N N' E) as (_ & _ & -> & _).
Qed.
Definition ex_grid (con : nat -> nat -> R) : grid := mkGrid 2 2 1 [1] [1] [1] [1] [1] 1 1 (fun _ _ => 255) con.
Example C103_names_example :
  length (qnames (body (ex_grid (fun x y => if (x =? y)%nat then 0 else 255)))) = 44%nat.
Proof.
  unfold body, ex_grid, pixel, pixel_kind. simpl. destruct (Rle_lt_dec 0 55); [|lra]. destruct (Rle_lt_dec 255 55); [lra|].
  destruct (Rle_lt_dec 255 200); [lra|]. reflexivity.
Qed.

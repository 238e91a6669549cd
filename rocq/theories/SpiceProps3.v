(** Properties C104 (quasi-3D results are stored where they belong) and C105 (dead ends
    of the quasi-3D netlist). *)
From Coq Require Import Reals String Ascii List Bool ZArith Arith Lra Lia.
From Verif Require Import Common NpModel MatStrModel MatStrProps SpiceModel SpiceProps SpiceProps2.
From Coq Require Import List.
Import ListNotations.
Open Scope R_scope.
Open Scope list_scope.

(** * C104 *)

(** What SPICE prints: for every print command a table with a heading and one row per
    step (the table may be repeated in pieces, in any order), and other lines.  A row
    of a node table holds the step, the sweep voltage and the voltages of the top, of
    the bottom and, under a contact, of the metal. *)
Inductive block :=
| NodeTable (j x y : nat) (metal : bool) (rows : list (nat * text * (text * text * text)))
| BiasTable (rows : list (nat * text * text))
| Other (l : list text).

Definition node_row (metal : bool) (r : nat * text * (text * text * text)) : list text :=
  match r with (i, v, (a, b, m)) => [str_nat i; v; a; b] ++ if metal then [m] else [] end.
Definition lines_of (b : block) : list (list text) :=
  match b with
  | NodeTable j x y metal rows =>
      ([t "Index"; t "v-sweep"; heading "t" j x y; heading "b" j x y] ++ if metal then [heading "m" j x y] else [])
      :: map (node_row metal) rows
  | BiasTable rows => [t "Index"; t "v-sweep"; t "vdep#branch"] :: map (fun r => match r with (i, v, c) => [str_nat i; v; c] end) rows
  | Other l => [l]
  end.

Section Reading.
Context (fl : text -> res R) (d : shape).
(** The solution: voltages at the nodes and the current of the bias source. *)
Context (vt vb : nat -> nat -> nat -> nat -> R) (vm : nat -> nat -> nat -> R) (vs ic : nat -> R).

(** A block that reports this solution, for a location within the arrays that the
    heading can hold. *)
Definition reports (b : block) : Prop :=
  match b with
  | NodeTable j x y metal rows =>
      (j < 10 /\ j < d_j d /\ x < 1000 /\ x < d_x d /\ y < 1000 /\ y < d_y d)%nat /\
      forall i v a b m, In (i, v, (a, b, m)) rows ->
        (i < d_n d)%nat /\ fl a = Ok (vt j x y i) /\ fl b = Ok (vb j x y i) /\ (metal = true -> fl m = Ok (vm x y i))
  | BiasTable rows => forall i v c, In (i, v, c) rows -> (i < d_n d)%nat /\ fl v = Ok (vs i) /\ fl c = Ok (ic i)
  | Other l => match l with [] => True | w :: _ => is_index w = false /\ match w with [] => True | c :: _ => numeric c = false end end
  end.
(** The values that appear. *)
Definition has_node (bs : list block) (j x y i : nat) : Prop :=
  exists metal rows v a b m, In (NodeTable j x y metal rows) bs /\ In (i, v, (a, b, m)) rows.
Definition has_metal (bs : list block) (x y i : nat) : Prop :=
  exists j rows v a b m, In (NodeTable j x y true rows) bs /\ In (i, v, (a, b, m)) rows.
Definition has_bias (bs : list block) (i : nat) : Prop :=
  exists rows v c, In (BiasTable rows) bs /\ In (i, v, c) rows.

(** An array that holds the solution where [P] and zero elsewhere. *)
Definition holds (P : Prop) (x v : R) : Prop := (P -> x = v) /\ (~ P -> x = 0).
Definition stored (node : nat -> nat -> nat -> nat -> Prop) (met : nat -> nat -> nat -> Prop) (bias : nat -> Prop) (st : store) : Prop :=
  (forall j x y i, holds (node j x y i) (s_vall st x y (2 * j)%nat i) (vt j x y i)) /\
  (forall j x y i, holds (node j x y i) (s_vall st x y (2 * j + 1)%nat i) (vb j x y i)) /\
  (forall x y i, holds (met x y i) (s_vmet st x y i) (vm x y i)) /\
  (forall i, holds (bias i) (s_v st i) (vs i)) /\
  (forall i, holds (bias i) (s_i st i) (- ic i)).

Lemma holds_ext (P Q : Prop) x v : (P <-> Q) -> holds P x v -> holds Q x v.
Proof. unfold holds. intros E [H1 H2]. split; intros H; [apply H1|apply H2]; tauto. Qed.
Lemma stored_ext n m b n' m' b' st : (forall j x y i, n j x y i <-> n' j x y i) -> (forall x y i, m x y i <-> m' x y i) ->
  (forall i, b i <-> b' i) -> stored n m b st -> stored n' m' b' st.
Proof.
  intros E1 E2 E3 (H1 & H2 & H3 & H4 & H5).
  repeat split; intros H; try (apply H1; now apply E1); try (apply H2; now apply E1); try (apply H3; now apply E2);
    try (apply H4; now apply E3); try (apply H5; now apply E3);
    try (apply H1; intros Q; apply H; now apply E1); try (apply H2; intros Q; apply H; now apply E1);
    try (apply H3; intros Q; apply H; now apply E2); try (apply H4; intros Q; apply H; now apply E3);
    try (apply H5; intros Q; apply H; now apply E3).
Qed.

Lemma str_nat_head i : exists c s, str_nat i = c :: s /\ numeric c = true /\ is_index (c :: s) = false.
Proof.
  pose proof (str_nat_nonnil i) as N. pose proof (str_nat_digits i) as F. destruct (str_nat i) as [|c s]; [contradiction|].
  exists c, s. split; [reflexivity|]. inversion F as [|? ? H _]; subst. unfold digit_char in H. simpl in H.
  repeat (destruct H as [<-|H]; [split; reflexivity|]). destruct H.
Qed.
Lemma int_of_str i : int_of (str_nat i) = Ok i.
Proof. rewrite int_of_digits by auto using str_nat_nonnil, str_nat_digits. now rewrite str_nat_value. Qed.

(** A data line goes to [read_row]. *)
Lemma read_data st i rest : read_line fl d st (str_nat i :: rest) = read_row fl d st (str_nat i) rest.
Proof.
  destruct (str_nat_head i) as (c & s & E & N & X). unfold read_line. rewrite E, X, N. reflexivity.
Qed.

Lemma read_node_row st (n : nat -> nat -> nat -> nat -> Prop) m bi j x y metal i v a b q :
  (j < d_j d)%nat -> (x < d_x d)%nat -> (y < d_y d)%nat -> (i < d_n d)%nat ->
  fl a = Ok (vt j x y i) -> fl b = Ok (vb j x y i) -> (metal = true -> fl q = Ok (vm x y i)) ->
  s_cur st = Some (j, x, y) -> stored n m bi st ->
  exists st', read_line fl d st (node_row metal (i, v, (a, b, q))) = Ok st' /\ s_cur st' = Some (j, x, y) /\
    stored (fun j' x' y' i' => n j' x' y' i' \/ (j' = j /\ x' = x /\ y' = y /\ i' = i))
           (fun x' y' i' => m x' y' i' \/ (metal = true /\ x' = x /\ y' = y /\ i' = i)) bi st'.
Proof.
  intros Hj Hx Hy Hi Ha Hb Hq C (S1 & S2 & S3 & S4 & S5). unfold node_row.
  change ([str_nat i; v; a; b] ++ (if metal then [q] else [])) with (str_nat i :: [v; a; b] ++ (if metal then [q] else [])).
  rewrite read_data. unfold read_row. rewrite int_of_str. cbn [bindR].
  assert (B : Nat.ltb x (d_x d) && Nat.ltb y (d_y d) && Nat.ltb (2 * j + 1) (2 * d_j d) && Nat.ltb i (d_n d) = true).
  { rewrite !andb_true_iff. repeat split; apply Nat.ltb_lt; lia. }
  assert (A : forall j' x' y' i',
     holds (n j' x' y' i' \/ (j' = j /\ x' = x /\ y' = y /\ i' = i))
       (upd4 (upd4 (s_vall st) x y (2 * j + 1) i (vb j x y i)) x y (2 * j) i (vt j x y i) x' y' (2 * j') i') (vt j' x' y' i') /\
     holds (n j' x' y' i' \/ (j' = j /\ x' = x /\ y' = y /\ i' = i))
       (upd4 (upd4 (s_vall st) x y (2 * j + 1) i (vb j x y i)) x y (2 * j) i (vt j x y i) x' y' (2 * j' + 1) i') (vb j' x' y' i')).
  { intros j' x' y' i'. unfold upd4. specialize (S1 j' x' y' i'). specialize (S2 j' x' y' i').
    destruct (Nat.eqb_spec x' x) as [->|]; [|cbn [andb]; split; [apply (holds_ext (n j' x' y' i')); [intuition|exact S1]|apply (holds_ext (n j' x' y' i')); [intuition|exact S2]]].
    destruct (Nat.eqb_spec y' y) as [->|]; [|cbn [andb]; split; [apply (holds_ext (n j' x y' i')); [intuition|exact S1]|apply (holds_ext (n j' x y' i')); [intuition|exact S2]]].
    destruct (Nat.eqb_spec i' i) as [->|]; [|rewrite !andb_false_r; split; [apply (holds_ext (n j' x y i')); [intuition|exact S1]|apply (holds_ext (n j' x y i')); [intuition|exact S2]]].
    destruct (Nat.eqb_spec (2 * j') (2 * j)) as [E|NE].
    - assert (j' = j) by lia. subst j'. rewrite Nat.eqb_refl. destruct (Nat.eqb_spec (2 * j + 1) (2 * j)); [lia|]. cbn [andb].
      split; (split; [reflexivity|]); intros Q; exfalso; apply Q; right; auto.
    - destruct (Nat.eqb_spec (2 * j') (2 * j + 1)); [lia|]. destruct (Nat.eqb_spec (2 * j' + 1) (2 * j)); [lia|].
      destruct (Nat.eqb_spec (2 * j' + 1) (2 * j + 1)); [lia|]. cbn [andb].
      split; [apply (holds_ext (n j' x y i)); [|exact S1]|apply (holds_ext (n j' x y i)); [|exact S2]];
        (split; [now left|]); intros [Q|(Q & _)]; auto; lia. }
  destruct metal; cbn [app length Nat.eqb]; unfold item; cbn [nth_error bindR]; rewrite Hb; cbn [bindR]; rewrite C, B, Ha; cbn [bindR].
  - rewrite (Hq eq_refl). cbn [bindR]. eexists. split; [reflexivity|]. split; [reflexivity|].
    unfold stored. cbn [s_vall s_vmet s_v s_i].
    split; [intros j' x' y' i'; exact (proj1 (A j' x' y' i'))|]. split; [intros j' x' y' i'; exact (proj2 (A j' x' y' i'))|].
    split; [|split; assumption].
    intros x' y' i'. unfold upd3. specialize (S3 x' y' i').
    destruct (Nat.eqb_spec x' x) as [->|]; [|cbn [andb]; apply (holds_ext (m x' y' i')); [intuition|exact S3]].
    destruct (Nat.eqb_spec y' y) as [->|]; [|cbn [andb]; apply (holds_ext (m x y' i')); [intuition|exact S3]].
    destruct (Nat.eqb_spec i' i) as [->|]; [|cbn [andb]; apply (holds_ext (m x y i')); [intuition|exact S3]].
    cbn [andb]. split; [reflexivity|]. intros Q. exfalso. apply Q. right. auto.
  - eexists. split; [reflexivity|]. split; [reflexivity|].
    unfold stored. cbn [s_vall s_vmet s_v s_i].
    split; [intros j' x' y' i'; exact (proj1 (A j' x' y' i'))|]. split; [intros j' x' y' i'; exact (proj2 (A j' x' y' i'))|].
    split; [|split; assumption]. intros x' y' i'. apply (holds_ext (m x' y' i')); [|apply S3].
    split; [now left|]. intros [Q|(Q & _)]; [assumption|discriminate].
Qed.

Lemma read_node_rows j x y metal : (j < d_j d)%nat -> (x < d_x d)%nat -> (y < d_y d)%nat ->
  forall rows st n m bi,
  (forall i v a b q, In (i, v, (a, b, q)) rows ->
     (i < d_n d)%nat /\ fl a = Ok (vt j x y i) /\ fl b = Ok (vb j x y i) /\ (metal = true -> fl q = Ok (vm x y i))) ->
  s_cur st = Some (j, x, y) -> stored n m bi st ->
  exists st', read_lines fl d st (map (node_row metal) rows) = Ok st' /\
    stored (fun j' x' y' i' => n j' x' y' i' \/ (j' = j /\ x' = x /\ y' = y /\ exists v a b q, In (i', v, (a, b, q)) rows))
           (fun x' y' i' => m x' y' i' \/ (metal = true /\ x' = x /\ y' = y /\ exists v a b q, In (i', v, (a, b, q)) rows)) bi st'.
Proof.
  intros Hj Hx Hy. induction rows as [|[[i v] [[a b] q]] rows IH]; intros st n m bi H C S.
  - exists st. split; [reflexivity|]. revert S. apply stored_ext; intros; split; auto.
    + intros [Q|(_ & _ & _ & ? & ? & ? & ? & [])]; exact Q.
    + intros [Q|(_ & _ & _ & ? & ? & ? & ? & [])]; exact Q.
  - destruct (H i v a b q (or_introl eq_refl)) as (Hi & Ha & Hb & Hq).
    destruct (read_node_row st n m bi j x y metal i v a b q Hj Hx Hy Hi Ha Hb Hq C S) as (st1 & E & C1 & S1).
    destruct (IH st1 _ _ bi (fun i v a b q I => H i v a b q (or_intror I)) C1 S1) as (st2 & E2 & S2).
    exists st2. split; [cbn [map read_lines]; rewrite E; exact E2|].
    revert S2. apply stored_ext.
    + intros j' x' y' i'. split.
      * intros [[Q|(-> & -> & -> & ->)]|(-> & -> & -> & v' & a' & b' & q' & I)]; [now left| |].
        -- right. do 3 (split; [reflexivity|]). exists v, a, b, q. now left.
        -- right. do 3 (split; [reflexivity|]). exists v', a', b', q'. now right.
      * intros [Q|(-> & -> & -> & v' & a' & b' & q' & [E'|I])]; [now left; left| |].
        -- injection E' as -> _ _ _ _. left; right. auto.
        -- right. do 3 (split; [reflexivity|]). now exists v', a', b', q'.
    + intros x' y' i'. split.
      * intros [[Q|(M & -> & -> & ->)]|(M & -> & -> & v' & a' & b' & q' & I)]; [now left| |].
        -- right. split; [assumption|]. do 2 (split; [reflexivity|]). exists v, a, b, q. now left.
        -- right. split; [assumption|]. do 2 (split; [reflexivity|]). exists v', a', b', q'. now right.
      * intros [Q|(M & -> & -> & v' & a' & b' & q' & [E'|I])]; [now left; left| |].
        -- injection E' as -> _ _ _ _. left; right. auto.
        -- right. split; [assumption|]. do 2 (split; [reflexivity|]). now exists v', a', b', q'.
    + reflexivity.
Qed.

Lemma read_bias_rows : forall rows st n m bi,
  (forall i v c, In (i, v, c) rows -> (i < d_n d)%nat /\ fl v = Ok (vs i) /\ fl c = Ok (ic i)) ->
  stored n m bi st ->
  exists st', read_lines fl d st (map (fun r : nat * text * text => match r with (i, v, c) => [str_nat i; v; c] end) rows) = Ok st' /\
    stored n m (fun i' => bi i' \/ exists v c, In (i', v, c) rows) st'.
Proof.
  induction rows as [|[[i v] c] rows IH]; intros st n m bi H S.
  - exists st. split; [reflexivity|]. revert S. apply stored_ext; intros; split; auto. intros [Q|(? & ? & [])]; exact Q.
  - destruct (H i v c (or_introl eq_refl)) as (Hi & Hv & Hc).
    set (st1 := mkStore (s_cur st) (s_vall st) (s_vmet st) (upd1 (s_v st) i (vs i)) (upd1 (s_i st) i (- ic i))).
    assert (E : read_line fl d st [str_nat i; v; c] = Ok st1).
    { rewrite read_data. unfold read_row. rewrite int_of_str. cbn [bindR length Nat.eqb]. unfold item. cbn [nth_error bindR].
      rewrite Hv. cbn [bindR]. destruct (Nat.ltb_spec i (d_n d)); [|lia]. rewrite Hc. reflexivity. }
    assert (S1 : stored n m (fun i' => bi i' \/ i' = i) st1).
    { destruct S as (A1 & A2 & A3 & A4 & A5). split; [exact A1|]. split; [exact A2|]. split; [exact A3|].
      split; intros i'; unfold st1; cbn [s_v s_i]; unfold upd1; destruct (Nat.eqb_spec i' i) as [->|].
      - split; [reflexivity|]. intros Q. exfalso. apply Q. now right.
      - apply (holds_ext (bi i')); [intuition|apply A4].
      - split; [reflexivity|]. intros Q. exfalso. apply Q. now right.
      - apply (holds_ext (bi i')); [intuition|apply A5]. }
    destruct (IH st1 _ _ _ (fun i v c I => H i v c (or_intror I)) S1) as (st2 & E2 & S2).
    exists st2. split; [cbn [map read_lines]; rewrite E; exact E2|].
    revert S2. apply stored_ext; intros; try reflexivity. split.
    + intros [[Q| ->]|(v' & c' & I)]; [now left|right; exists v, c; now left|right; exists v', c'; now right].
    + intros [Q|(v' & c' & [E'|I])]; [now left; left|injection E' as -> _ _; left; now right|right; now exists v', c'].
Qed.

Lemma read_lines_app st l l' : read_lines fl d st (l ++ l') = bindR (read_lines fl d st l) (fun st' => read_lines fl d st' l').
Proof.
  revert st. induction l as [|a l IH]; intros st; [reflexivity|]. cbn [app read_lines].
  destruct (read_line fl d st a) as [st'|e]; [|reflexivity]. cbn [bindR]. apply IH.
Qed.

Lemma read_block b st n m bi : reports b -> stored n m bi st ->
  exists st', read_lines fl d st (lines_of b) = Ok st' /\
    stored (fun j x y i => n j x y i \/ has_node [b] j x y i) (fun x y i => m x y i \/ has_metal [b] x y i)
           (fun i => bi i \/ has_bias [b] i) st'.
Proof.
  intros R S. destruct b as [j x y metal rows|rows|l].
  - destruct R as [(J10 & Jd & X3 & Xd & Y3 & Yd) H]. cbn [lines_of read_lines].
    set (st1 := mkStore (Some (j, x, y)) (s_vall st) (s_vmet st) (s_v st) (s_i st)).
    assert (E : read_line fl d st ([t "Index"; t "v-sweep"; heading "t" j x y; heading "b" j x y] ++ if metal then [heading "m" j x y] else []) = Ok st1).
    { unfold read_line. set (h := heading "t" j x y).
      change ([t "Index"; t "v-sweep"; h; heading "b" j x y] ++ (if metal then [heading "m" j x y] else []))
        with (t "Index" :: t "v-sweep" :: h :: heading "b" j x y :: (if metal then [heading "m" j x y] else [])).
      replace (is_index (t "Index") && _) with true by (destruct metal; reflexivity).
      unfold item. cbn [nth_error bindR]. unfold h. rewrite C64_location_partial by assumption. reflexivity. }
    rewrite E. cbn [bindR].
    destruct (read_node_rows j x y metal Jd Xd Yd rows st1 n m bi H eq_refl) as (st2 & E2 & S2); [exact S|].
    exists st2. split; [exact E2|]. revert S2. apply stored_ext.
    + intros j' x' y' i'. split.
      * intros [Q|(-> & -> & -> & v & a & b & q & I)]; [now left|]. right. exists metal, rows, v, a, b, q. split; [now left|assumption].
      * intros [Q|(me & ro & v & a & b & q & [E'|[]] & I)]; [now left|]. injection E' as <- <- <- <- <-.
        right. do 3 (split; [reflexivity|]). now exists v, a, b, q.
    + intros x' y' i'. split.
      * intros [Q|(-> & -> & -> & v & a & b & q & I)]; [now left|]. right. exists j, rows, v, a, b, q. split; [now left|assumption].
      * intros [Q|(j' & ro & v & a & b & q & [E'|[]] & I)]; [now left|]. injection E' as <- <- <- -> <-.
        right. do 3 (split; [reflexivity|]). now exists v, a, b, q.
    + intros i'. split; [now left|]. intros [Q|(ro & v & c & [E'|[]] & _)]; [assumption|discriminate].
  - cbn [lines_of read_lines]. change (read_line fl d st [t "Index"; t "v-sweep"; t "vdep#branch"]) with (Ok st : res store). cbn [bindR].
    destruct (read_bias_rows rows st n m bi R S) as (st2 & E2 & S2). exists st2. split; [exact E2|]. revert S2. apply stored_ext.
    + intros. split; [now left|]. intros [Q|(me & ro & v & a & b & q & [E'|[]] & I)]; [assumption|discriminate].
    + intros. split; [now left|]. intros [Q|(me & ro & v & a & b & q & [E'|[]] & I)]; [assumption|discriminate].
    + intros i. split.
      * intros [Q|(v & c & I)]; [now left|]. right. exists rows, v, c. split; [now left|assumption].
      * intros [Q|(ro & v & c & [E'|[]] & I)]; [now left|]. injection E' as <-. right. now exists v, c.
  - exists st. split.
    + cbn [lines_of read_lines]. destruct l as [|w l]; [reflexivity|]. destruct R as [R1 R2]. unfold read_line. rewrite R1. cbn [andb bindR].
      destruct w as [|c w]; [reflexivity|]. now rewrite R2.
    + revert S. apply stored_ext; intros; (split; [now left|]).
      * intros [Q|(me & ro & v & a & b & q & [E'|[]] & I)]; [assumption|discriminate].
      * intros [Q|(me & ro & v & a & b & q & [E'|[]] & I)]; [assumption|discriminate].
      * intros [Q|(ro & v & c & [E'|[]] & I)]; [assumption|discriminate].
Qed.

Lemma read_blocks bs : forall st n m bi, Forall reports bs -> stored n m bi st ->
  exists st', read_lines fl d st (flat_map lines_of bs) = Ok st' /\
    stored (fun j x y i => n j x y i \/ has_node bs j x y i) (fun x y i => m x y i \/ has_metal bs x y i)
           (fun i => bi i \/ has_bias bs i) st'.
Proof.
  induction bs as [|b bs IH]; intros st n m bi F S.
  - exists st. split; [reflexivity|]. revert S. apply stored_ext; intros; (split; [now left|]).
    + intros [Q|(? & ? & ? & ? & ? & ? & [] & _)]; exact Q.
    + intros [Q|(? & ? & ? & ? & ? & ? & [] & _)]; exact Q.
    + intros [Q|(? & ? & ? & [] & _)]; exact Q.
  - inversion F as [|? ? R F']; subst. destruct (read_block b st n m bi R S) as (st1 & E1 & S1).
    destruct (IH st1 _ _ _ F' S1) as (st2 & E2 & S2). exists st2. split.
    + cbn [flat_map]. rewrite read_lines_app, E1. exact E2.
    + revert S2. apply stored_ext.
      * intros j x y i. split.
        -- intros [[Q|(me & ro & v & a & b' & q & [E|[]] & I)]|(me & ro & v & a & b' & q & J & I)]; [now left| |].
           ++ right. exists me, ro, v, a, b', q. split; [now left|assumption].
           ++ right. exists me, ro, v, a, b', q. split; [now right|assumption].
        -- intros [Q|(me & ro & v & a & b' & q & [E|J] & I)]; [now left; left| |].
           ++ left; right. exists me, ro, v, a, b', q. split; [now left|assumption].
           ++ right. now exists me, ro, v, a, b', q.
      * intros x y i. split.
        -- intros [[Q|(me & ro & v & a & b' & q & [E|[]] & I)]|(me & ro & v & a & b' & q & J & I)]; [now left| |].
           ++ right. exists me, ro, v, a, b', q. split; [now left|assumption].
           ++ right. exists me, ro, v, a, b', q. split; [now right|assumption].
        -- intros [Q|(me & ro & v & a & b' & q & [E|J] & I)]; [now left; left| |].
           ++ left; right. exists me, ro, v, a, b', q. split; [now left|assumption].
           ++ right. now exists me, ro, v, a, b', q.
      * intros i. split.
        -- intros [[Q|(ro & v & c & [E|[]] & I)]|(ro & v & c & J & I)]; [now left| |].
           ++ right. exists ro, v, c. split; [now left|assumption].
           ++ right. exists ro, v, c. split; [now right|assumption].
        -- intros [Q|(ro & v & c & [E|J] & I)]; [now left; left| |].
           ++ left; right. exists ro, v, c. split; [now left|assumption].
           ++ right. now exists ro, v, c.
Qed.

(** C104 (partial).  Reading any output that reports a solution, in any order and with
    any other lines between the tables, stores every voltage that is reported at its own
    place in the arrays and leaves zero everywhere else; the current has the sign and the
    scale of the solar cell.  Missing: circuits with ten or more junctions or a thousand
    or more pixels in a row (C64_location_refuted). *)
Theorem C104_results_partial gn bs : Forall reports bs ->
  exists st, read_output fl d gn (flat_map lines_of bs) = Ok st /\
  (forall j x y i, holds (has_node bs j x y i) (s_vall st x y (2 * j)%nat i) (vt j x y i) /\
                   holds (has_node bs j x y i) (s_vall st x y (2 * j + 1)%nat i) (vb j x y i)) /\
  (forall x y i, holds (has_metal bs x y i) (s_vmet st x y i) (vm x y i)) /\
  (forall i, holds (has_bias bs i) (s_v st i) (vs i) /\ holds (has_bias bs i) (s_i st i) (- ic i / gn)).
Proof.
  intros F.
  destruct (read_blocks bs empty_store (fun _ _ _ _ => False) (fun _ _ _ => False) (fun _ => False) F) as (st & E & S).
  { repeat split; intros []; reflexivity || contradiction. }
  unfold read_output. rewrite E. cbn [bindR]. eexists. split; [reflexivity|]. cbn [s_vall s_vmet s_v s_i].
  destruct S as (S1 & S2 & S3 & S4 & S5).
  split; [intros j x y i; split; [generalize (S1 j x y i)|generalize (S2 j x y i)]; apply holds_ext; tauto|].
  split; [intros x y i; generalize (S3 x y i); apply holds_ext; tauto|].
  intros i. split; [generalize (S4 i); apply holds_ext; tauto|].
  destruct (S5 i) as [A B]. split; intros H; [rewrite A by tauto; reflexivity|]. rewrite B by tauto. unfold Rdiv. ring.
Qed.
End Reading.

(** One junction, one pixel, one step. *)
Example C104_results_example :
  let fl := fun s : text => match s with ["1"%char] => Ok 1 | _ => Ok 2 end in
  Forall (reports fl (mkShape 1 1 1 1) (fun _ _ _ _ => 1) (fun _ _ _ _ => 2) (fun _ _ _ => 0) (fun _ => 1) (fun _ => 2))
    [ Other [t "Circuit:"]; NodeTable 0 0 0 false [(0%nat, t "0", (t "1", t "2", t ""))]; BiasTable [(0%nat, t "1", t "2")] ].
Proof.
  cbv zeta. apply Forall_cons; [split; reflexivity|]. apply Forall_cons; [|apply Forall_cons; [|apply Forall_nil]].
  - split; [simpl; lia|]. intros i v a b m [E|[]]. injection E as <- <- <- <- <-. repeat split; [simpl; lia|discriminate].
  - intros i v c [E|[]]. injection E as <- <- <-. repeat split. simpl. lia.
Qed.

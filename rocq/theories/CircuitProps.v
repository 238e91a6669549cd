(** C160: reading the output of SPICE. C161: which program solves a circuit. *)
From Coq Require Import Reals String Ascii List Bool Arith Lia Lra.
From Verif Require Import Common TmmModel MatStrModel MatStrProps CircuitModel.
From Coq Require Import List.
Import ListNotations.
Open Scope list_scope.

(** * C160 *)
(** A text is printed as a list of words when these stand in it in order, separated by blanks. *)
Definition blank_codes : list nat := [9; 10; 11; 12; 13; 28; 29; 30; 31; 32; 133; 160]%nat.
Definition blank (c : ascii) : Prop := In (nat_of_ascii c) blank_codes.
Definition blanks (b : text) : Prop := Forall blank b.
Definition word (w : text) : Prop := w <> [] /\ Forall (fun c => ~ blank c) w.
Lemma is_blank_spec c : is_blank c = true <-> blank c.
Proof.
  unfold is_blank, blank, blank_codes. set (n := nat_of_ascii c). clearbody n. rewrite !orb_true_iff, !andb_true_iff, !Nat.eqb_eq, !Nat.leb_le. cbn [In]. lia.
Qed.
Lemma is_blank_not c : ~ blank c -> is_blank c = false.
Proof. intros H. destruct (is_blank c) eqn:E; [|reflexivity]. elim H. now apply is_blank_spec. Qed.
Inductive printed : list text -> text -> Prop :=
| printed_end b : blanks b -> printed [] b
| printed_last w b : word w -> blanks b -> printed [w] (b ++ w)
| printed_word w ws b c r : word w -> blanks b -> blank c -> printed ws (c :: r) -> printed (w :: ws) (b ++ w ++ c :: r).
Lemma words_blanks b s : blanks b -> words (b ++ s) = words s.
Proof. unfold words. induction 1 as [|c b H HB IH]; [reflexivity|]. cbn [app words_from]. apply is_blank_spec in H. now rewrite H. Qed.
Lemma words_word w : Forall (fun c => ~ blank c) w -> forall cur s, words_from cur (w ++ s) = words_from (cur ++ w) s.
Proof.
  induction 1 as [|c w H HW IH]; intros cur s; [now rewrite app_nil_r|]. cbn [app words_from]. rewrite (is_blank_not c H), IH, <- app_assoc. reflexivity.
Qed.
Lemma words_printed ws s : printed ws s -> words s = ws.
Proof.
  induction 1 as [b HB|w b [N HW] HB|w ws b c r [N HW] HB Hc HP IH].
  - rewrite <- (app_nil_r b). now rewrite words_blanks.
  - rewrite words_blanks by exact HB. unfold words. rewrite <- (app_nil_r w). rewrite words_word by exact HW. cbn [app words_from].
    rewrite app_nil_r. destruct w; [now elim N|reflexivity].
  - apply is_blank_spec in Hc. rewrite words_blanks by exact HB. unfold words. rewrite words_word by exact HW. cbn [app words_from]. rewrite Hc.
    destruct w as [|x w]; [now elim N|]. f_equal. unfold words in IH. cbn [words_from] in IH. rewrite Hc in IH. exact IH.
Qed.
(** A text made of lines. *)
Fixpoint joined (ls : list text) : text :=
  match ls with [] => [] | [l] => l | l :: r => l ++ newline :: joined r end.
Lemma lines_joined ls : ls <> [] -> Forall (fun l => ~ In newline l) ls -> lines_of (joined ls) = ls.
Proof.
  intros N H. unfold lines_of. induction H as [|l ls Hl H IH]; [now elim N|]. destruct ls as [|l' ls].
  - cbn [joined]. now apply split_on_none.
  - cbn [joined]. rewrite split_on_app by exact Hl. f_equal. apply IH. discriminate.
Qed.

Section Output.
Context (fl : text -> res R).
(** A row of a table: a number at the very beginning, then a word for every value. *)
Definition is_row (l : text) (vs : list R) : Prop :=
  exists c l' i ws, l = c :: l' /\ In c (t "0123456789.") /\ printed (i :: ws) l /\ Forall2 (fun w v => fl w = Ok v) ws vs.
(** Anything else: empty, or not beginning with a digit or a point. *)
Definition not_row (l : text) : Prop := l = [] \/ exists c l', l = c :: l' /\ ~ In c (t "0123456789.").
(** [tabulates ls d]: the rows among the lines are [d]. *)
Inductive tabulates : list text -> list (list R) -> Prop :=
| tab_nil : tabulates [] []
| tab_row l vs ls d : is_row l vs -> tabulates ls d -> tabulates (l :: ls) (vs :: d)
| tab_other l ls d : not_row l -> tabulates ls d -> tabulates (l :: ls) d.
Lemma starts_row_in c : starts_row c = true <-> In c (t "0123456789.").
Proof.
  unfold starts_row. rewrite existsb_exists. split.
  - intros (x & Hx & E). apply Ascii.eqb_eq in E. subst x. revert Hx. cbn. tauto.
  - intros H. exists c. split; [|apply Ascii.eqb_refl]. revert H. cbn. tauto.
Qed.
Lemma mapRR_Forall2_ok (ws : list text) vs : Forall2 (fun w v => fl w = Ok v) ws vs -> mapRR fl ws = Ok vs.
Proof. induction 1 as [|w v ws vs H F IH]; [reflexivity|]. cbn [mapRR]. rewrite H. cbn [bindR]. rewrite IH. reflexivity. Qed.
Lemma rows_tabulates ls d : tabulates ls d -> rows fl ls = Ok d.
Proof.
  induction 1 as [|l vs ls d (c & l' & i & ws & -> & Hc & P & F) T IH|l ls d H T IH]; [reflexivity| |].
  - cbn [rows]. apply starts_row_in in Hc. rewrite Hc, (words_printed _ _ P). cbn [tl].
    rewrite (mapRR_Forall2_ok _ _ F). cbn [bindR]. rewrite IH. reflexivity.
  - destruct H as [->|(c & l' & -> & H)]; [exact IH|]. cbn [rows]. destruct (starts_row c) eqn:E; [|exact IH].
    now apply starts_row_in in E.
Qed.
(** With raw=False, the result has one row for every printed column after the first, with the
    values of that column in order; lines that do not begin with a number do not matter. *)
Theorem C160_table : forall ls d k, ls <> [] -> Forall (fun l => ~ In newline l) ls -> tabulates ls d ->
  d <> [] -> Forall (fun r => length r = k) d ->
  exists cols, table_of fl (joined ls) = Ok cols /\ length cols = k /\
    forall j i, (j < k)%nat -> (i < length d)%nat -> nth i (nth j cols []) 0%R = nth j (nth i d []) 0%R.
Proof.
  intros ls d k N HN T Hd HF. unfold table_of. rewrite lines_joined by assumption. rewrite (rows_tabulates _ _ T). cbn [bindR].
  destruct d as [|r d]; [now elim Hd|]. assert (Hr := Forall_inv HF). cbn [transposed].
  assert (A : forallb (fun x => (length x =? length r)%nat) (r :: d) = true).
  { apply forallb_forall. intros x Hx. rewrite Forall_forall in HF. rewrite (HF x Hx), Hr. apply Nat.eqb_refl. }
  rewrite A. eexists. split; [reflexivity|]. split; [rewrite map_length, seq_length; exact Hr|].
  intros j i Hj Hi. set (dd := r :: d) in *.
  rewrite (nth_indep _ [] ((fun j => map (fun x => nth j x 0%R) dd) 0%nat)) by (rewrite map_length, seq_length, Hr; exact Hj).
  rewrite (map_nth (fun j => map (fun x => nth j x 0%R) dd)), seq_nth by (rewrite Hr; exact Hj). cbn [Nat.add].
  rewrite (nth_indep _ 0%R ((fun x => nth j x 0%R) [])) by (now rewrite map_length).
  rewrite (map_nth (fun x => nth j x 0%R)). reflexivity.
Qed.
(** Rows of different lengths (two tables in one output), or no row at all. *)
Theorem C160_ragged : forall ls d r1 r2, ls <> [] -> Forall (fun l => ~ In newline l) ls -> tabulates ls d ->
  (In r1 d -> In r2 d -> length r1 <> length r2 -> table_of fl (joined ls) = Err ValueError) /\
  (d = [] -> table_of fl (joined ls) = Ok []).
Proof.
  intros ls d r1 r2 N HN T. unfold table_of. rewrite lines_joined by assumption. rewrite (rows_tabulates _ _ T). cbn [bindR].
  split; [|intros ->; reflexivity]. intros H1 H2 HL. destruct d as [|r d]; [contradiction|]. cbn [transposed].
  destruct (forallb (fun x => (length x =? length r)%nat) (r :: d)) eqn:E; [|reflexivity]. rewrite forallb_forall in E.
  apply E in H1, H2. apply Nat.eqb_eq in H1, H2. lia.
Qed.
(** A table whose rows begin with a blank or a sign is not seen at all. *)
Theorem C160_sign_refuted : forall ls, ls <> [] ->
  Forall (fun l => ~ In newline l /\ exists c r, l = c :: r /\ (c = " " \/ c = "-")%char) ls ->
  table_of fl (joined ls) = Ok [].
Proof.
  intros ls N H. apply (C160_ragged ls [] [] []); [exact N| | |reflexivity].
  - rewrite Forall_forall in *. intros l Hl. apply H. exact Hl.
  - clear N. induction H as [|l ls (_ & c & r & -> & Hc) H IH]; [constructor|]. apply tab_other; [|exact IH].
    right. exists c, r. split; [reflexivity|]. destruct Hc as [-> | ->]; cbn; intuition discriminate.
Qed.

(** ** Modules *)
(** A point of the curve: a blank or a sign, a digit, and the two numbers; other lines have no
    digit at the second place or fewer than three characters. *)
Definition is_point (l : text) (p : R * R) : Prop :=
  exists c d r v i ws, l = c :: d :: r /\ r <> [] /\ In d (t "0123456789") /\ printed (v :: i :: ws) l /\
    fl v = Ok (fst p) /\ fl i = Ok (snd p).
Definition not_point (l : text) : Prop := (length l <= 2)%nat \/ exists c d r, l = c :: d :: r /\ ~ In d (t "0123456789").
Inductive plots : list text -> list (R * R) -> Prop :=
| plot_nil : plots [] []
| plot_point l p ls ps : is_point l p -> plots ls ps -> plots (l :: ls) (p :: ps)
| plot_other l ls ps : not_point l -> plots ls ps -> plots (l :: ls) ps.
Lemma digit_in c : digit c = true <-> In c (t "0123456789").
Proof.
  unfold digit. rewrite existsb_exists. split.
  - intros (x & Hx & E). apply Ascii.eqb_eq in E. now subst x.
  - intros H. exists c. split; [exact H|apply Ascii.eqb_refl].
Qed.
Lemma read_module_plots ls ps : plots ls ps -> read_module fl ls = Ok ps.
Proof.
  induction 1 as [|l [x y] ls ps (c & d & r & v & i & ws & -> & Hr & Hd & P & Hv & Hi) T IH|l ls ps H T IH]; [reflexivity| |].
  - cbn [read_module]. destruct r as [|r0 r]; [now elim Hr|]. apply digit_in in Hd. rewrite Hd.
    unfold read_pair. rewrite (words_printed _ _ P). cbn [fst snd] in Hv, Hi. rewrite Hv. cbn [bindR]. rewrite Hi. cbn [bindR].
    rewrite IH. reflexivity.
  - cbn [read_module]. destruct H as [H|(c & d & r & -> & H)].
    + destruct l as [|a [|b [|c l]]]; [exact IH|exact IH|exact IH|cbn in H; lia].
    + destruct r as [|r0 r]; [exact IH|]. destruct (digit d) eqn:E; [now apply digit_in in E|exact IH].
Qed.
(** The curve of a module has every point of the output in order, whatever else is printed. *)
Theorem C160_module_partial : forall ls ps, ls <> [] -> Forall (fun l => ~ In newline l) ls -> plots ls ps ->
  module_output fl (joined ls) = Ok (map fst ps, map snd ps).
Proof.
  intros ls ps N HN H. unfold module_output. rewrite lines_joined by assumption. rewrite (read_module_plots _ _ H). reflexivity.
Qed.
(** A point whose voltage is printed at the very beginning of the line is dropped without a word. *)
Theorem C160_column_refuted : forall c r, In c (t "0123456789") -> ~ In newline r ->
  module_output fl (c :: "."%char :: r) = Ok ([], []).
Proof.
  intros c r Hc Hr. change (c :: "."%char :: r) with (joined [c :: "."%char :: r]).
  apply (C160_module_partial _ []); [discriminate| |].
  - constructor; [|constructor]. intros [E|[E|E]]; [|discriminate|contradiction]. subst c. revert Hc. cbn. intuition discriminate.
  - apply plot_other; [|constructor]. right. exists c, "."%char, r. split; [reflexivity|]. cbn. intuition discriminate.
Qed.
(** And any other line with a digit at its second place must be made of numbers, or nothing is
    returned at all. *)
Theorem C160_heading_refuted : forall ls ps l r, ls <> [] -> Forall (fun l => ~ In newline l) ls -> ~ In newline l ->
  Forall (fun l => ~ In newline l) r -> plots ls ps ->
  (exists c d x, l = c :: d :: x /\ x <> [] /\ In d (t "0123456789")) -> (forall w, hd_error (words l) = Some w -> fl w = Err ValueError) ->
  words l <> [] -> module_output fl (joined (ls ++ l :: r)) = Err ValueError.
Proof.
  intros ls ps l r N HN Hl HNr H (c & d & x & -> & Hx & Hd) Hw Nw. unfold module_output. rewrite lines_joined.
  2:{ destruct ls; discriminate. }
  2:{ apply Forall_app. split; [exact HN|]. constructor; assumption. }
  assert (E : read_module fl (ls ++ (c :: d :: x) :: r) = Err ValueError); [|now rewrite E].
  clear N HN. induction H as [|l [u y] ls ps (c' & d' & r' & v & i & ws & -> & Hr & Hd' & P & Hv & Hi) T IH|l ls ps H T IH].
  - cbn [app read_module]. destruct x as [|x0 x]; [now elim Hx|]. apply digit_in in Hd. rewrite Hd. unfold read_pair.
    destruct (words (c :: d :: x0 :: x)) as [|w [|w' ws]]; [now elim Nw| |]; now rewrite (Hw w eq_refl).
  - cbn [app read_module]. destruct r' as [|r0 r']; [now elim Hr|]. apply digit_in in Hd'. rewrite Hd'.
    unfold read_pair at 1. rewrite (words_printed _ _ P). cbn [fst snd] in Hv, Hi. rewrite Hv. cbn [bindR]. rewrite Hi. cbn [bindR].
    rewrite IH. reflexivity.
  - cbn [app read_module]. destruct H as [H|(c' & d' & r' & -> & H)].
    + destruct l as [|a [|b [|e l]]]; [exact IH|exact IH|exact IH|cbn in H; lia].
    + destruct r' as [|r0 r']; [exact IH|]. destruct (digit d') eqn:E; [now apply digit_in in E|exact IH].
Qed.
End Output.

(** * C161 *)
Section Engine.
Context (fl : text -> res R) (run : text -> text -> res text).
(** The program that a call is answered by. *)
Theorem C161_engine : forall s c p raw, p <> [] ->
  let r := spice_step fl run s (Solve c (Some (EPath p)) raw) in
  se_engine (fst r) = EPath p /\ se_config (fst r) = se_config s /\ se_default (fst r) = se_default s /\
  forall out, run p c = Ok out ->
    (raw = true -> snd r = Some (Ok (Raw out))) /\
    (raw = false -> forall d, table_of fl out = Ok d -> snd r = Some (Ok (Table d))).
Proof.
  intros s c p raw Hp r. unfold r. cbn [spice_step solve_circuit fst snd se_engine se_config se_default].
  repeat (split; [reflexivity|]). intros out E. destruct p as [|x p]; [now elim Hp|]. rewrite E. cbn [bindR]. split.
  - intros ->. reflexivity.
  - intros -> d Hd. rewrite Hd. reflexivity.
Qed.
Lemma default_kept h : forall s, se_default (spice_run fl run s h) = se_default s.
Proof.
  unfold spice_run. induction h as [|o h IH]; intros s; [reflexivity|]. cbn [fold_left]. rewrite IH. now destruct o.
Qed.
(** A call that names no program is answered by the one found when the module was imported: the
    environment variable if there is one, else the configuration of that moment. *)
Theorem C161_default : forall env config h c raw,
  snd (spice_step fl run (spice_run fl run (start env config) h) (Solve c None raw)) =
  snd (spice_step fl run (start env config) (Solve c (Some (EPath (match env with Some e => e | None => config end))) raw)).
Proof.
  intros env config h c raw. cbn [spice_step snd]. rewrite default_kept. reflexivity.
Qed.
(** Without a program the call is refused, and nothing is run. *)
Theorem C161_missing : forall s c raw e, e = ENone \/ e = EPath [] ->
  snd (spice_step fl run s (Solve c (Some e) raw)) = Some (Err RuntimeError).
Proof. intros s c raw e [-> | ->]; reflexivity. Qed.
(** The two functions kept for old programs pass the class instead of the path and always fail. *)
Theorem C161_legacy_refuted : forall c,
  snd (get_raw_from_spice fl run c None) = Err TypeError /\ snd (send_to_spice fl run c None) = Err TypeError.
Proof. intros c. split; reflexivity. Qed.
End Engine.
(** Setting the location of SPICE in the configuration has no effect on calls in the same session. *)
Theorem C161_config_refuted : exists fl run config p c out,
  let s := spice_run fl run (start None config) [SetSpice p] in
  se_config s = p /\ run p c = Ok out /\ p <> config /\ snd (spice_step fl run s (Solve c None true)) <> Some (Ok (Raw out)).
Proof.
  exists (fun _ => Ok 0%R), (fun p _ => if (length p =? 3)%nat then Ok (t "new") else Ok (t "old")), (t "ngspice"), (t "new"), [], (t "new").
  cbv zeta. repeat split; cbn; try discriminate.
Qed.

(** * Examples *)
(** A float reader that knows three numbers. *)
Definition some_floats (w : text) : res R :=
  if existsb (fun p => Bool.eqb p true) [if list_eq_dec ascii_dec w (t "1.5") then true else false] then Ok 1.5%R
  else if list_eq_dec ascii_dec w (t "-2.0") then Ok (-2)%R
  else if list_eq_dec ascii_dec w (t "0.5") then Ok 0.5%R
  else if list_eq_dec ascii_dec w (t "-1.5") then Ok (-1.5)%R else Err ValueError.
Lemma word_ok w : w <> [] -> forallb (fun c => negb (is_blank c)) w = true -> word w.
Proof.
  intros N H. split; [exact N|]. rewrite forallb_forall in H. apply Forall_forall. intros c Hc B. apply is_blank_spec in B. specialize (H c Hc). now rewrite B in H.
Qed.
Lemma blanks_ok b : forallb is_blank b = true -> blanks b.
Proof. intros H. rewrite forallb_forall in H. apply Forall_forall. intros c Hc. apply is_blank_spec. now apply H. Qed.
Ltac wd := apply word_ok; [discriminate|reflexivity].
Ltac bl := first [apply blanks_ok; reflexivity|apply is_blank_spec; reflexivity].
Example C160_example : exists d,
  let ls := [t "Circuit: test"; []; t "Index   v-sweep   i(v1)"; t "0  1.5 -2.0"; t "1 0.5  0.5 "; t " done"] in
  Forall (fun l => ~ In newline l) ls /\ tabulates some_floats ls d /\ length d = 2%nat /\ Forall (fun r => length r = 2%nat) d.
Proof.
  exists [[1.5; -2]; [0.5; 0.5]]%R. cbv zeta. split.
  { repeat constructor; vm_compute; intuition discriminate. }
  split; [|split; [reflexivity|repeat constructor]].
  apply tab_other. { right. eexists _, _. split; [reflexivity|]. vm_compute. intuition discriminate. }
  apply tab_other. { now left. }
  apply tab_other. { right. eexists _, _. split; [reflexivity|]. vm_compute. intuition discriminate. }
  apply tab_row.
  { eexists _, _, (t "0"), [t "1.5"; t "-2.0"]. split; [reflexivity|]. split; [vm_compute; tauto|]. split.
    - apply (printed_word (t "0") _ [] " "%char (t " 1.5 -2.0")); [wd|bl|bl|].
      apply (printed_word (t "1.5") _ (t "  ") " "%char (t "-2.0")); [wd|bl|bl|].
      apply (printed_last (t "-2.0") (t " ")); [wd|bl].
    - repeat constructor. }
  apply tab_row.
  { eexists _, _, (t "1"), [t "0.5"; t "0.5"]. split; [reflexivity|]. split; [vm_compute; tauto|]. split.
    - apply (printed_word (t "1") _ [] " "%char (t "0.5  0.5 ")); [wd|bl|bl|].
      apply (printed_word (t "0.5") _ (t " ") " "%char (t " 0.5 ")); [wd|bl|bl|].
      apply (printed_word (t "0.5") _ (t "  ") " "%char []); [wd|bl|bl|].
      constructor. bl.
    - repeat constructor. }
  apply tab_other. { right. eexists _, _. split; [reflexivity|]. vm_compute. intuition discriminate. }
  constructor.
Qed.
Example C160_module_example : plots some_floats [t "Legend"; t "-1.5 0.5 . *"; t "--"] [(-1.5, 0.5)]%R.
Proof.
  apply plot_other. { right. eexists _, _, _. split; [reflexivity|]. vm_compute. intuition discriminate. }
  apply plot_point.
  { eexists _, _, _, (t "-1.5"), (t "0.5"), [t "."; t "*"]. split; [reflexivity|]. split; [discriminate|]. split; [vm_compute; tauto|].
    split; [|split; reflexivity].
    apply (printed_word (t "-1.5") _ [] " "%char (t "0.5 . *")); [wd|bl|bl|].
    apply (printed_word (t "0.5") _ (t " ") " "%char (t ". *")); [wd|bl|bl|].
    apply (printed_word (t ".") _ (t " ") " "%char (t "*")); [wd|bl|bl|].
    apply (printed_last (t "*") (t " ")); [wd|bl]. }
  apply plot_other; [left; cbn; lia|constructor].
Qed.

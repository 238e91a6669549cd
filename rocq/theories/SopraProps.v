(** Properties of the SOPRA library (SopraModel): C144 the sets of files, C145 the materials. *)
From Coq Require Import Reals String Ascii List Bool Arith Lia Lra Psatz Permutation Sorted.
From Verif Require Import Common InterpModel InterpProps NpModel PhysConst SopraModel.
From Coq Require Import List.
Import ListNotations.
Open Scope string_scope.
Open Scope R_scope.
Open Scope list_scope.

(** * What the names of the files say *)

(** The value of a text of digits. *)
Definition value (ds : list ascii) : nat := fold_left (fun n a => (10 * n + digit a)%nat) ds 0%nat.
Definition no_sign (p : list ascii) : Prop := forall p', p <> p' ++ ["-"%char] /\ p <> p' ++ ["+"%char].
(** A file named in the manner of the library: a prefix without digits, an integer, and
    something that does not continue it, e.g. GAAS031T.MAT. *)
Definition named (p : list ascii) (v : nat) (s : string) : Prop :=
  exists ds rest, list_ascii_of_string s = p ++ ds ++ rest /\ Forall (fun a => is_digit a = false) p /\ no_sign p /\
    ds <> [] /\ Forall (fun a => is_digit a = true) ds /\ v = value ds /\ starts_with_digit rest = false /\
    (forall r, rest = "."%char :: r -> starts_with_digit r = false).

Lemma digits_app ds rest : Forall (fun a => is_digit a = true) ds -> starts_with_digit rest = false -> forall n c,
  digits n c (ds ++ rest) = (fold_left (fun n a => (10 * n + digit a)%nat) ds n, (c + length ds)%nat, rest).
Proof.
  intros F S0. induction F as [|a ds Ha F IH]; intros n c.
  - cbn [app fold_left length]. rewrite Nat.add_0_r. destruct rest as [|b r]; [reflexivity|]. cbn [starts_with_digit] in S0. cbn [digits]. now rewrite S0.
  - cbn [app digits fold_left length]. rewrite Ha, IH. f_equal. f_equal. lia.
Qed.
Lemma number_named ds rest : Forall (fun a => is_digit a = true) ds -> starts_with_digit rest = false ->
  (forall r, rest = "."%char :: r -> starts_with_digit r = false) -> number (ds ++ rest) = INR (value ds).
Proof.
  intros F S0 D. unfold number. rewrite (digits_app _ _ F S0). fold (value ds). destruct rest as [|b r]; [reflexivity|].
  destruct (Ascii.eqb_spec b "."%char) as [->|Nb].
  - specialize (D r eq_refl). pose proof (digits_app [] r (Forall_nil _) D 0 0) as E. cbn [app fold_left length] in E. rewrite E.
    simpl. lra.
  - destruct b as [b0 b1 b2 b3 b4 b5 b6 b7]. destruct b0, b1, b2, b3, b4, b5, b6, b7; try reflexivity. now contradiction Nb.
Qed.
Lemma first_number_app p l : Forall (fun a => is_digit a = false) p -> no_sign p -> starts_with_digit l = true ->
  first_number (p ++ l) = number l.
Proof.
  intros F. induction F as [|a p Ha F IH]; intros Ns Sl.
  - cbn [app]. destruct l as [|b l']; [discriminate|]. cbn [starts_with_digit] in Sl. cbn [first_number]. now rewrite Sl.
  - cbn [app first_number]. rewrite Ha.
    assert (Ns' : no_sign p).
    { intros p'. split; intros ->; destruct (Ns (a :: p')) as [A B]; [now apply A|now apply B]. }
    destruct p as [|b p'].
    + destruct (Ns []) as [A B]. cbn [app] in *.
      destruct (Ascii.eqb_spec a "-"%char) as [->|]; [contradiction|]. destruct (Ascii.eqb_spec a "+"%char) as [->|]; [contradiction|].
      cbn [andb]. now apply IH.
    + inversion F as [|? ? Hb ?]; subst. cbn [app starts_with_digit]. rewrite Hb, !andb_false_r. now apply IH.
Qed.
Lemma num_named p v s : named p v s -> num s = INR v.
Proof.
  intros (ds & rest & E & Fp & Ns & Nd & Fd & -> & S0 & D). unfold num. rewrite E.
  rewrite first_number_app; [now apply number_named|assumption|assumption|].
  destruct Fd; [contradiction|]. assumption.
Qed.

Lemma key_num_app ds rest n : Forall (fun a => is_digit a = true) ds -> starts_with_digit rest = false ->
  exists tl, key_num n (ds ++ rest) = Num (fold_left (fun n a => (10 * n + digit a)%nat) ds n) :: tl.
Proof.
  intros F S0. revert n. induction F as [|a ds Ha F IH]; intros n.
  - cbn [app fold_left]. destruct rest as [|b r]; cbn [key_num]; [now exists []|]. cbn [starts_with_digit] in S0. rewrite S0. eexists; reflexivity.
  - cbn [app key_num fold_left]. rewrite Ha. apply IH.
Qed.
Lemma key_text_app p l acc : Forall (fun a => is_digit a = false) p -> key_text acc (p ++ l) = key_text (rev p ++ acc) l.
Proof.
  intros F. revert acc. induction F as [|a p Ha F IH]; intros acc; [reflexivity|].
  cbn [app key_text rev]. rewrite Ha, IH, <- app_assoc. reflexivity.
Qed.
Lemma key_named p v s : named p v s -> exists tl, key s = Txt p :: Num v :: tl.
Proof.
  intros (ds & rest & E & Fp & _ & Nd & Fd & -> & S0 & _). unfold key. rewrite E, key_text_app by assumption.
  destruct Fd as [|a ds Ha Fd]; [contradiction|]. cbn [app key_text]. rewrite Ha.
  destruct (key_num_app ds rest (digit a) Fd S0) as [tl ->]. exists tl. rewrite app_nil_r, rev_involutive. reflexivity.
Qed.

(** * The order of the keys *)

Lemma text_cmp_eq a b : text_cmp a b = Eq -> a = b.
Proof.
  revert b. induction a as [|x a IH]; intros [|y b] H; cbn [text_cmp] in H; try discriminate; [reflexivity|].
  destruct (Nat.compare_spec (nat_of_ascii x) (nat_of_ascii y)) as [E|E|E]; try discriminate.
  rewrite <- (ascii_nat_embedding x), <- (ascii_nat_embedding y), E. f_equal. now apply IH.
Qed.
Lemma text_cmp_refl a : text_cmp a a = Eq.
Proof. induction a as [|x a IH]; [reflexivity|]. cbn [text_cmp]. now rewrite Nat.compare_refl. Qed.
Lemma text_cmp_trans a b d : text_cmp a b = Lt -> text_cmp b d = Lt -> text_cmp a d = Lt.
Proof.
  revert b d. induction a as [|x a IH]; intros [|y b] [|z d] H1 H2; cbn [text_cmp] in *; try discriminate; [reflexivity|].
  destruct (Nat.compare_spec (nat_of_ascii x) (nat_of_ascii y)) as [E|E|E]; try discriminate;
  destruct (Nat.compare_spec (nat_of_ascii y) (nat_of_ascii z)) as [E'|E'|E']; try discriminate;
  destruct (Nat.compare_spec (nat_of_ascii x) (nat_of_ascii z)) as [E''|E''|E'']; try lia; try reflexivity. eauto.
Qed.
Lemma text_cmp_sym a b : text_cmp b a = CompOpp (text_cmp a b).
Proof.
  revert b. induction a as [|x a IH]; intros [|y b]; try reflexivity. cbn [text_cmp]. rewrite (Nat.compare_antisym (nat_of_ascii x)).
  destruct (Nat.compare (nat_of_ascii x) (nat_of_ascii y)); cbn [CompOpp]; auto.
Qed.
Lemma chunk_cmp_eq a b : chunk_cmp a b = Eq -> a = b.
Proof. destruct a, b; cbn [chunk_cmp]; try discriminate; intros H; f_equal; [now apply text_cmp_eq|now apply Nat.compare_eq]. Qed.
Lemma chunk_cmp_refl a : chunk_cmp a a = Eq.
Proof. destruct a; cbn [chunk_cmp]; [apply text_cmp_refl|apply Nat.compare_refl]. Qed.
Lemma chunk_cmp_sym a b : chunk_cmp b a = CompOpp (chunk_cmp a b).
Proof. destruct a, b; try reflexivity; [apply text_cmp_sym|apply Nat.compare_antisym]. Qed.
Lemma chunk_cmp_trans a b d : chunk_cmp a b = Lt -> chunk_cmp b d = Lt -> chunk_cmp a d = Lt.
Proof.
  destruct a, b, d; cbn [chunk_cmp]; try discriminate; try reflexivity; [apply text_cmp_trans|].
  rewrite !Nat.compare_lt_iff. lia.
Qed.
Lemma key_cmp_eq a b : key_cmp a b = Eq -> a = b.
Proof.
  revert b. induction a as [|x a IH]; intros [|y b] H; cbn [key_cmp] in H; try discriminate; [reflexivity|].
  destruct (chunk_cmp x y) eqn:E; try discriminate. f_equal; [now apply chunk_cmp_eq|now apply IH].
Qed.
Lemma key_cmp_refl a : key_cmp a a = Eq.
Proof. induction a as [|x a IH]; [reflexivity|]. cbn [key_cmp]. now rewrite chunk_cmp_refl. Qed.
Lemma key_cmp_sym a b : key_cmp b a = CompOpp (key_cmp a b).
Proof.
  revert b. induction a as [|x a IH]; intros [|y b]; try reflexivity. cbn [key_cmp]. rewrite (chunk_cmp_sym x y).
  destruct (chunk_cmp x y); cbn [CompOpp]; auto.
Qed.
Lemma key_cmp_trans a b d : key_cmp a b = Lt -> key_cmp b d = Lt -> key_cmp a d = Lt.
Proof.
  revert b d. induction a as [|x a IH]; intros [|y b] [|z d] H1 H2; cbn [key_cmp] in *; try discriminate; [reflexivity|].
  destruct (chunk_cmp x y) eqn:E; try discriminate.
  - apply chunk_cmp_eq in E as ->. destruct (chunk_cmp y z) eqn:E; try discriminate; [eauto|reflexivity].
  - destruct (chunk_cmp y z) eqn:E'; try discriminate.
    + apply chunk_cmp_eq in E' as ->. now rewrite E.
    + now rewrite (chunk_cmp_trans _ _ _ E E').
Qed.
Definition kle (f g : string * dtable) : Prop := key_cmp (key (fst f)) (key (fst g)) <> Gt.
Lemma kle_trans f g i : kle f g -> kle g i -> kle f i.
Proof.
  unfold kle. intros A B. destruct (key_cmp (key (fst f)) (key (fst g))) eqn:E1; [|clear A|contradiction].
  - apply key_cmp_eq in E1 as ->. assumption.
  - destruct (key_cmp (key (fst g)) (key (fst i))) eqn:E2; [|clear B|contradiction].
    + apply key_cmp_eq in E2 as <-. now rewrite E1.
    + now rewrite (key_cmp_trans _ _ _ E1 E2).
Qed.

(** * The sorted folder *)

Lemma nat_insert_perm f l : Permutation (f :: l) (nat_insert f l).
Proof.
  induction l as [|g l IH]; [reflexivity|]. cbn [nat_insert]. destruct (key_cmp (key (fst f)) (key (fst g))); try reflexivity.
  rewrite perm_swap. now constructor.
Qed.
Lemma natsorted_perm l : Permutation l (natsorted l).
Proof. induction l as [|f l IH]; [reflexivity|]. cbn [natsorted fold_right]. rewrite <- nat_insert_perm. now constructor. Qed.
Lemma nat_insert_sorted f l : StronglySorted kle l -> StronglySorted kle (nat_insert f l).
Proof.
  intros H. induction H as [|g l H IH F]; cbn [nat_insert]; [repeat constructor|].
  destruct (key_cmp (key (fst f)) (key (fst g))) eqn:E.
  1, 2: assert (Kfg : kle f g) by (unfold kle; rewrite E; discriminate); constructor; [now constructor|]; constructor; [assumption|];
    rewrite Forall_forall in *; intros x Hx; apply kle_trans with g; auto.
  constructor; [assumption|]. apply (Permutation_Forall (nat_insert_perm f l)). constructor; [|assumption].
  unfold kle. rewrite key_cmp_sym, E. discriminate.
Qed.
Lemma natsorted_sorted l : StronglySorted kle (natsorted l).
Proof. induction l as [|f l IH]; [constructor|]. now apply nat_insert_sorted. Qed.
Lemma sorted_filter {A} (Rel : A -> A -> Prop) p l : StronglySorted Rel l -> StronglySorted Rel (filter p l).
Proof.
  intros H. induction H as [|a l H IH F]; [constructor|]. cbn [filter]. destruct (p a); [|assumption]. constructor; [assumption|].
  rewrite Forall_forall in *. intros x Hx. apply F. now apply filter_In in Hx.
Qed.
Lemma perm_filter {A} (p : A -> bool) l l' : Permutation l l' -> Permutation (filter p l) (filter p l').
Proof.
  intros H. induction H; cbn [filter]; [constructor|destruct (p x); auto| |eauto using Permutation_trans].
  destruct (p x), (p y); auto. constructor.
Qed.

(** * Sets of files *)

(** The set: every file but those of the operating system is named in the manner of the
    library, and the numbers are different. *)
Definition wf (p : list ascii) (fo : folder) : Prop :=
  (forall f, In f fo -> listed f = true -> exists v, named p v (fst f)) /\
  NoDup (map (fun f => num (fst f)) (filter listed fo)).
Definition files (fo : folder) : folder := filter listed (natsorted fo).
Definition before (f g : string * dtable) : Prop := num (fst f) < num (fst g).

Lemma files_in fo f : In f (files fo) <-> In f fo /\ listed f = true.
Proof.
  unfold files. rewrite filter_In. split; intros [A B]; split; auto.
  - apply (Permutation_in _ (Permutation_sym (natsorted_perm fo))). assumption.
  - apply (Permutation_in _ (natsorted_perm fo)). assumption.
Qed.
Lemma files_sorted p fo : wf p fo -> StronglySorted before (files fo).
Proof.
  intros [N D].
  assert (D' : NoDup (map (fun f => num (fst f)) (files fo))).
  { eapply Permutation_NoDup; [|exact D]. apply Permutation_map, perm_filter, natsorted_perm. }
  assert (N' : forall f, In f (files fo) -> exists v, named p v (fst f)) by (intros f I; apply files_in in I as [I L]; auto).
  pose proof (sorted_filter kle listed _ (natsorted_sorted fo)) as K. change (StronglySorted kle (files fo)) in K.
  induction K as [|f l K IH F]; [constructor|]. cbn [map] in D'. inversion D' as [|? ? Nin D'']; subst.
  constructor; [apply IH; [assumption|intros; apply N'; now right]|].
  rewrite Forall_forall in *. intros g I. destruct (N' f (or_introl eq_refl)) as [v V]. destruct (N' g (or_intror I)) as [w W].
  specialize (F g I). unfold kle, before in *. destruct (key_named _ _ _ V) as [tl E]. destruct (key_named _ _ _ W) as [tl' E'].
  rewrite E, E' in F. cbn [key_cmp chunk_cmp] in F. rewrite text_cmp_refl in F.
  rewrite (num_named _ _ _ V), (num_named _ _ _ W). apply lt_INR.
  destruct (Nat.compare_spec v w) as [->|L|L]; [|assumption|contradiction].
  exfalso. apply Nin. rewrite (num_named _ _ _ V), <- (num_named _ _ _ W). now apply (in_map (fun f => num (fst f))).
Qed.
Lemma sorted_perm_eq (l l' : folder) : StronglySorted before l -> StronglySorted before l' -> Permutation l l' -> l = l'.
Proof.
  intros H. revert l'. induction H as [|a l H IH F]; intros l' H' P; [symmetry; now apply Permutation_nil|].
  destruct H' as [|b l' H' F']; [now apply Permutation_sym, Permutation_nil_cons in P|].
  assert (a = b).
  { assert (I : In a (b :: l')) by (apply (Permutation_in _ P); now left).
    assert (J : In b (a :: l)) by (apply (Permutation_in _ (Permutation_sym P)); now left).
    destruct I as [->|I]; [reflexivity|]. destruct J as [->|J]; [reflexivity|].
    rewrite Forall_forall in *. specialize (F b J). specialize (F' a I). unfold before in *. lra. }
  subst b. f_equal. apply IH; [assumption|]. now apply Permutation_cons_inv in P.
Qed.
Lemma files_increasing p fo : wf p fo -> increasing (map (fun f => num (fst f)) (files fo)).
Proof.
  intros W. pose proof (files_sorted p fo W) as K. induction K as [|f l K IH F]; intros i j Hij; [cbn [map length] in Hij; lia|].
  rewrite Forall_forall in F. cbn [map length] in Hij. rewrite map_length in Hij.
  destruct i as [|i], j as [|j]; [lia| |lia|].
  - cbn [map]. change (num (fst f) < nth j (map (fun g => num (fst g)) l) 0).
    assert (I : In (nth j (map (fun g => num (fst g)) l) 0) (map (fun g => num (fst g)) l)) by (apply nth_In; rewrite map_length; lia).
    apply in_map_iff in I as (g & <- & I). now apply F.
  - cbn [map]. apply IH. rewrite map_length. lia.
Qed.

(** Interpolation within one cell and beyond the ends. *)
Lemma np_interp_cell xp fp i v : increasing xp -> (S i < length xp)%nat -> at_ xp i <= v <= at_ xp (S i) ->
  np_interp xp fp v = at_ fp i + (v - at_ xp i) / (at_ xp (S i) - at_ xp i) * (at_ fp (S i) - at_ fp i).
Proof.
  intros Hx Hi Hv. assert (L : at_ xp i < at_ xp (S i)) by (apply Hx; lia).
  destruct (Req_dec v (at_ xp (S i))) as [->|Nv]; [rewrite np_interp_node by (assumption || lia); field; lra|].
  destruct (count_le_spec xp v (increasing_nondecreasing _ Hx)) as (C1 & C2 & C3).
  assert (Hk : count_le xp v = S i).
  { destruct (lt_eq_lt_dec (count_le xp v) (S i)) as [[H|H]|H]; [|assumption|].
    - specialize (C3 i ltac:(lia)). lra.
    - specialize (C2 (S i) ltac:(lia)). lra. }
  unfold np_interp. rewrite Hk. destruct (Nat.eqb_spec (S i) 0); [lia|]. destruct (Nat.eqb_spec (S i) (length xp)); [lia|].
  replace (S i - 1)%nat with i by lia. field. lra.
Qed.
Lemma np_interp_low xp fp v : increasing xp -> (0 < length xp)%nat -> v <= at_ xp 0 -> np_interp xp fp v = at_ fp 0.
Proof.
  intros Hx Hl [Lv| ->]; [|now apply np_interp_node].
  destruct (np_interp_weights xp v (increasing_nondecreasing _ Hx) ltac:(lia)) as (i & j & w & _ & _ & _ & _ & E & _ & Lo & _).
  destruct (Lo Lv) as [-> ->]. rewrite E. ring.
Qed.
Lemma np_interp_high xp fp v : increasing xp -> (0 < length xp)%nat -> at_ xp (length xp - 1) <= v -> np_interp xp fp v = at_ fp (length xp - 1).
Proof.
  intros Hx Hl Lv.
  destruct (np_interp_weights xp v (increasing_nondecreasing _ Hx) ltac:(lia)) as (i & j & w & _ & _ & _ & _ & E & _ & _ & Hi).
  destruct (Hi Lv) as [-> ->]. rewrite E. ring.
Qed.

(** What one file gives at a wavelength in nm. *)
Definition n_at (t : dtable) (l : R) : R := np_interp (t_wav t) (t_n t) l.
Definition k_at (t : dtable) (l : R) : R := np_interp (t_wav t) (t_k t) l.
Definition nums (fo : folder) : list R := map (fun f => num (fst f)) (files fo).

Lemma map_seq_at (L : list R) (g : R -> R) : map (fun i => g (at_ L i)) (seq 0 (length L)) = map g L.
Proof.
  induction L as [|a L IH]; [reflexivity|]. cbn [length seq map]. f_equal. rewrite <- seq_shift, map_map. exact IH.
Qed.
Lemma load_set_some fo L v : files fo <> [] -> load_set fo (Some L) v =
  Ok (L, map (fun l => np_interp (nums fo) (map (fun f => n_at (snd f) l) (files fo)) v) L,
         map (fun l => np_interp (nums fo) (map (fun f => k_at (snd f) l) (files fo)) v) L).
Proof.
  intros Ne. unfold load_set. fold (files fo). unfold interpolate.
  destruct (map (entry (Some L)) (files fo)) as [|d ds] eqn:E; [now apply map_eq_nil in E|].
  assert (Ed : e_wav d = L). { destruct (files fo) as [|f l]; [contradiction|]. cbn [map] in E. now injection E as <- _. }
  rewrite Ed, <- E.
  replace (forallb _ _) with true.
  2:{ symmetry. apply forallb_forall. intros e I. apply in_map_iff in I as (f & <- & _). unfold entry, e_n. cbn [fst snd]. rewrite map_length. apply Nat.leb_refl. }
  f_equal. f_equal; [f_equal|].
  - rewrite <- (map_seq_at L (fun l => np_interp (nums fo) (map (fun f => n_at (snd f) l) (files fo)) v)).
    apply map_ext_in. intros i I. apply in_seq in I. rewrite !map_map. f_equal; apply map_ext; intros f.
    unfold entry, e_n. cbn [fst snd]. rewrite (nth_indep _ 0 (n_at (snd f) 0)) by (rewrite map_length; lia). apply (map_nth (n_at (snd f))).
  - rewrite <- (map_seq_at L (fun l => np_interp (nums fo) (map (fun f => k_at (snd f) l) (files fo)) v)).
    apply map_ext_in. intros i I. apply in_seq in I. rewrite !map_map. f_equal; apply map_ext; intros f.
    unfold entry, e_k. cbn [fst snd]. rewrite (nth_indep _ 0 (k_at (snd f) 0)) by (rewrite map_length; lia). apply (map_nth (k_at (snd f))).
Qed.
Lemma nth_files fo (g : string * dtable -> R) i d : (i < length (files fo))%nat -> at_ (map g (files fo)) i = g (nth i (files fo) d).
Proof. intros Hi. rewrite (nth_indep _ 0 (g d)) by (rewrite map_length; lia). apply map_nth. Qed.

(** C144, order: the order in which the operating system lists the folder does not matter. *)
Theorem C144_order : forall p fo fo' Lambda v, wf p fo -> Permutation fo fo' -> load_set fo Lambda v = load_set fo' Lambda v.
Proof.
  intros p fo fo' Lambda v W P. assert (W' : wf p fo').
  { destruct W as [N D]. split; [intros f I; apply N; now apply (Permutation_in _ (Permutation_sym P))|].
    eapply Permutation_NoDup; [|exact D]. now apply Permutation_map, perm_filter. }
  unfold load_set. fold (files fo) (files fo'). replace (files fo') with (files fo); [reflexivity|].
  apply sorted_perm_eq; [now apply (files_sorted p)|now apply (files_sorted p)|]. unfold files. apply perm_filter.
  rewrite <- !natsorted_perm. exact P.
Qed.

(** C144, at a file: the number of a file gives the data of that file. *)
Theorem C144_file : forall p fo s t L, wf p fo -> In (s, t) fo -> listed (s, t) = true ->
  load_set fo (Some L) (num s) = Ok (L, map (n_at t) L, map (k_at t) L).
Proof.
  intros p fo s t L W I Li. assert (I' : In (s, t) (files fo)) by now apply files_in.
  rewrite load_set_some by (intros E; rewrite E in I'; contradiction).
  destruct (In_nth _ _ (s, t) I') as (i & Hi & Ei). pose proof (files_increasing p fo W) as Inc. fold (nums fo) in Inc.
  assert (Ln : length (nums fo) = length (files fo)) by (unfold nums; apply map_length).
  assert (En : at_ (nums fo) i = num s) by (unfold nums; rewrite (nth_files _ _ _ (s, t)) by assumption; now rewrite Ei).
  assert (K : forall g : string * dtable -> R, np_interp (nums fo) (map g (files fo)) (num s) = g (s, t)).
  { intros g. rewrite <- En, np_interp_node by (assumption || lia). rewrite (nth_files _ _ _ (s, t)) by assumption. now rewrite Ei. }
  f_equal. f_equal; [f_equal|]; apply map_ext; intros l; apply K.
Qed.

(** C144, between two neighbouring files: linear interpolation, the same at all wavelengths
    and for n and k. *)
Theorem C144_between : forall p fo s t s' t' L v, wf p fo -> In (s, t) fo -> In (s', t') fo ->
  listed (s, t) = true -> listed (s', t') = true -> num s < num s' ->
  (forall f, In f fo -> listed f = true -> ~ num s < num (fst f) < num s') -> num s <= v <= num s' ->
  let w := (v - num s) / (num s' - num s) in
  0 <= w <= 1 /\
  load_set fo (Some L) v = Ok (L, map (fun l => n_at t l + w * (n_at t' l - n_at t l)) L,
                                  map (fun l => k_at t l + w * (k_at t' l - k_at t l)) L).
Proof.
  intros p fo s t s' t' L v W I I' Li Li' Lt Nb Hv w. split.
  { unfold w. split; [apply Rmult_le_pos; [lra|left; apply Rinv_0_lt_compat; lra]|].
    apply Rmult_le_reg_r with (num s' - num s); [lra|]. unfold Rdiv. rewrite Rmult_assoc, Rinv_l by lra. lra. }
  assert (J : In (s, t) (files fo)) by now apply files_in. assert (J' : In (s', t') (files fo)) by now apply files_in.
  rewrite load_set_some by (intros E; rewrite E in J; contradiction).
  destruct (In_nth _ _ (s, t) J) as (i & Hi & Ei). destruct (In_nth _ _ (s, t) J') as (j & Hj & Ej).
  pose proof (files_increasing p fo W) as Inc. fold (nums fo) in Inc.
  assert (Ln : length (nums fo) = length (files fo)) by (unfold nums; apply map_length).
  assert (En : forall k, (k < length (files fo))%nat -> at_ (nums fo) k = num (fst (nth k (files fo) (s, t)))).
  { intros k Hk. unfold nums. now rewrite (nth_files _ _ _ (s, t)) by assumption. }
  assert (X : at_ (nums fo) i = num s) by (rewrite En, Ei by assumption; reflexivity).
  assert (X' : at_ (nums fo) j = num s') by (rewrite En, Ej by assumption; reflexivity).
  assert (Hij : j = S i).
  { destruct (lt_eq_lt_dec j (S i)) as [[H|H]|H]; [|assumption|].
    - exfalso. destruct (Nat.eq_dec j i) as [->|]; [rewrite X in X'; lra|]. assert (at_ (nums fo) j < at_ (nums fo) i) by (apply Inc; lia). lra.
    - exfalso. assert (H1 : at_ (nums fo) i < at_ (nums fo) (S i)) by (apply Inc; lia).
      assert (H2 : at_ (nums fo) (S i) < at_ (nums fo) j) by (apply Inc; lia). rewrite X in H1. rewrite X' in H2.
      rewrite (En (S i)) in H1, H2 by lia.
      assert (In (nth (S i) (files fo) (s, t)) (files fo)) as IM by (apply nth_In; lia). apply files_in in IM as [IM IL].
      apply (Nb _ IM IL). split; assumption. }
  subst j.
  assert (K : forall g : string * dtable -> R, np_interp (nums fo) (map g (files fo)) v = g (s, t) + w * (g (s', t') - g (s, t))).
  { intros g. rewrite (np_interp_cell _ _ i) by (assumption || lia || lra).
    rewrite !(nth_files _ _ _ (s, t)) by assumption. rewrite X, X', Ei, Ej. reflexivity. }
  f_equal. f_equal; [f_equal|]; apply map_ext; intros l; apply (K (fun f => _ (snd f) l)).
Qed.

(** C144, outside: below the smallest number the data of that file, likewise above. *)
Theorem C144_outside : forall p fo s t L v, wf p fo -> In (s, t) fo -> listed (s, t) = true ->
  ((forall f, In f fo -> listed f = true -> num s <= num (fst f)) /\ v <= num s \/
   (forall f, In f fo -> listed f = true -> num (fst f) <= num s) /\ num s <= v) ->
  load_set fo (Some L) v = Ok (L, map (n_at t) L, map (k_at t) L).
Proof.
  intros p fo s t L v W I Li H. assert (J : In (s, t) (files fo)) by now apply files_in.
  rewrite load_set_some by (intros E; rewrite E in J; contradiction).
  destruct (In_nth _ _ (s, t) J) as (i & Hi & Ei). pose proof (files_increasing p fo W) as Inc. fold (nums fo) in Inc.
  assert (Ln : length (nums fo) = length (files fo)) by (unfold nums; apply map_length).
  assert (En : forall k, (k < length (files fo))%nat -> at_ (nums fo) k = num (fst (nth k (files fo) (s, t)))).
  { intros k Hk. unfold nums. now rewrite (nth_files _ _ _ (s, t)) by assumption. }
  assert (X : at_ (nums fo) i = num s) by (rewrite En, Ei by assumption; reflexivity).
  assert (Al : forall k, (k < length (files fo))%nat -> In (nth k (files fo) (s, t)) fo /\ listed (nth k (files fo) (s, t)) = true).
  { intros k Hk. apply files_in, nth_In. assumption. }
  assert (K : forall g : string * dtable -> R, np_interp (nums fo) (map g (files fo)) v = g (s, t)).
  { intros g. destruct H as [[Mi Lv]|[Ma Lv]].
    - assert (i = 0%nat) as ->.
      { destruct (Nat.eq_dec i 0); [assumption|]. exfalso. assert (H1 : at_ (nums fo) 0 < at_ (nums fo) i) by (apply Inc; lia).
        rewrite X, En in H1 by lia. destruct (Al 0%nat ltac:(lia)) as [A B]. specialize (Mi _ A B). lra. }
      rewrite np_interp_low by (assumption || lia || lra). rewrite (nth_files _ _ _ (s, t)) by assumption. now rewrite Ei.
    - assert (i = length (nums fo) - 1)%nat as Eq.
      { destruct (Nat.eq_dec i (length (nums fo) - 1)); [assumption|]. exfalso.
        assert (H1 : at_ (nums fo) i < at_ (nums fo) (length (nums fo) - 1)) by (apply Inc; lia).
        rewrite X, En in H1 by lia. destruct (Al (length (nums fo) - 1)%nat ltac:(lia)) as [A B]. specialize (Ma _ A B). lra. }
      rewrite np_interp_high by (assumption || lia || (rewrite <- Eq; lra)). rewrite <- Eq, (nth_files _ _ _ (s, t)) by assumption. now rewrite Ei. }
  f_equal. f_equal; [f_equal|]; apply map_ext; intros l; apply (K (fun f => _ (snd f) l)).
Qed.

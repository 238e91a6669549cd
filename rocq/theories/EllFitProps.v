(** C184: fitting a stack to ellipsometry data. *)
From Coq Require Import Reals String List Bool Arith Lia Lra.
From Verif Require Import Common NpModel EllDataModel EllFitModel.
From Verif Require StackModel.
From Coq Require Import List.
Import ListNotations.
Open Scope R_scope.
Open Scope list_scope.
Local Arguments Nat.eq_dec : simpl never.

(** * Lemmas on places *)
Lemma nth_set_at {A} (x : A) : forall l i j, nth_error (set_at i x l) j = if Nat.eq_dec i j then match nth_error l j with Some _ => Some x | None => None end else nth_error l j.
Proof.
  induction l as [|a l IH]; intros i j; cbn.
  - destruct (Nat.eq_dec i j); destruct i, j; reflexivity.
  - destruct i, j; cbn; try reflexivity. rewrite IH. destruct (Nat.eq_dec i j), (Nat.eq_dec (S i) (S j)); try reflexivity; lia.
Qed.
Lemma set_at_same {A} (x : A) : forall l i, nth_error l i = Some x -> set_at i x l = l.
Proof. induction l as [|a l IH]; intros [|i] H; cbn in *; try discriminate; [now injection H as ->|]. now rewrite IH. Qed.
Lemma set_at_length {A} (x : A) : forall l i, length (set_at i x l) = length l.
Proof. induction l as [|a l IH]; intros [|i]; cbn; auto. Qed.
Lemma oget_oput n v o k : oget k (oput n v o) = if String.eqb n k then Some v else oget k o.
Proof.
  induction o as [|[a w] o IH]; cbn; [reflexivity|]. destruct (String.eqb_spec a n) as [->|N]; cbn.
  - destruct (String.eqb n k); reflexivity.
  - rewrite IH. destruct (String.eqb_spec a k), (String.eqb_spec n k); try reflexivity. congruence.
Qed.
Lemma oput_same n v o : oget n o = Some v -> oput n v o = o.
Proof. induction o as [|[a w] o IH]; cbn; [discriminate|]. destruct (String.eqb a n); [intros [= ->]; reflexivity|]. intros H. now rewrite IH. Qed.
Definition place_eq (p q : place) : {p = q} + {p <> q}.
Proof. decide equality; try apply Nat.eq_dec; apply string_dec. Defined.

Section Places.
Context {idx : Type}.
Implicit Types st : list (@layer idx).
Ltac cases H := repeat match type of H with
  | context [match ?x with _ => _ end] => let E := fresh "E" in destruct x eqn:E; try discriminate H
  end.
Lemma read_write st p v st' : write_place st p v = Ok st' -> forall q, read_place st' q = if place_eq p q then Ok v else read_place st q.
Proof.
  intros H q. destruct p as [i|i|i|i k n]; cbn in H; cases H; injection H as <-.
  - destruct (place_eq (PWidth i) q) as [<-|N].
    + cbn. rewrite nth_set_at, E. now destruct (Nat.eq_dec i i).
    + destruct q as [j|j|j|j k' n']; cbn; rewrite nth_set_at; destruct (Nat.eq_dec i j) as [->|]; try reflexivity; rewrite E; try reflexivity. congruence.
  - destruct (place_eq (PEinf i) q) as [<-|N].
    + cbn. rewrite nth_set_at, E. now destruct (Nat.eq_dec i i).
    + destruct q as [j|j|j|j k' n']; cbn; rewrite nth_set_at; destruct (Nat.eq_dec i j) as [->|]; try reflexivity; rewrite E; cbn; rewrite ?E0; try reflexivity. congruence.
  - destruct (place_eq (PEgap i) q) as [<-|N].
    + cbn. rewrite nth_set_at, E. now destruct (Nat.eq_dec i i).
    + destruct q as [j|j|j|j k' n']; cbn; rewrite nth_set_at; destruct (Nat.eq_dec i j) as [->|]; try reflexivity; rewrite E; cbn; rewrite ?E0; try reflexivity. congruence.
  - destruct (place_eq (POsc i k n) q) as [<-|N].
    + cbn. rewrite nth_set_at, E. destruct (Nat.eq_dec i i); [|congruence]. cbn. rewrite nth_set_at, E1. destruct (Nat.eq_dec k k); [|congruence].
      now rewrite oget_oput, String.eqb_refl.
    + destruct q as [j|j|j|j k' n']; cbn; rewrite nth_set_at; destruct (Nat.eq_dec i j) as [->|]; try reflexivity; rewrite E; cbn; rewrite ?E0; try reflexivity.
      rewrite nth_set_at. destruct (Nat.eq_dec k k') as [<-|]; [|reflexivity]. rewrite E1, oget_oput. destruct (String.eqb_spec n n') as [->|]; [congruence|reflexivity].
Qed.
Lemma write_ok st p v : is_ok (read_place st p) = true -> exists st', write_place st p v = Ok st'.
Proof.
  destruct p as [i|i|i|i k n]; cbn; destruct (nth_error st i) as [l|]; try discriminate; intros H.
  - eexists. reflexivity.
  - destruct (mdl l); [|discriminate]. eexists. reflexivity.
  - destruct (mdl l); [|discriminate]. eexists. reflexivity.
  - destruct (mdl l) as [m|]; [|discriminate]. destruct (nth_error (oscs m) k); [|discriminate]. eexists. reflexivity.
Qed.
Lemma write_same st p v : read_place st p = Ok v -> write_place st p v = Ok st.
Proof.
  intros H. destruct p as [i|i|i|i k n]; cbn in *; cases H; injection H as <-; f_equal.
  - apply set_at_same. rewrite E. now destruct l.
  - apply set_at_same. rewrite E. unfold with_model. destruct l as [w m rw c]. cbn in *. rewrite E0. now destruct d.
  - apply set_at_same. rewrite E. unfold with_model. destruct l as [w m rw c]. cbn in *. rewrite E0, <- E1. now destruct d.
  - apply set_at_same. rewrite E. unfold with_model. destruct l as [w m rw c]. cbn in *. rewrite E0.
    match goal with Ho : oget n ?o = Some ?v, Hk : nth_error _ k = Some ?o |- _ => rewrite (oput_same n v o Ho), (set_at_same o _ _ Hk) end. now destruct d.
Qed.
(** What a write does not touch *)
Definition frame (l l' : @layer idx) : Prop := raw l' = raw l /\ cache l' = cache l.
Lemma set_at_frame st i l' : (exists l, nth_error st i = Some l /\ frame l l') -> Forall2 frame st (set_at i l' st).
Proof.
  revert i. induction st as [|a st IH]; intros i (l & H & Hf); destruct i; cbn in *; try discriminate.
  - injection H as ->. constructor; [exact Hf|]. clear. induction st; constructor; auto. split; reflexivity.
  - constructor; [split; reflexivity|]. apply IH. now exists l.
Qed.
Lemma write_frame st p v st' : write_place st p v = Ok st' -> Forall2 frame st st'.
Proof.
  intros H. destruct p as [i|i|i|i k n]; cbn in *; cases H; injection H as <-; apply set_at_frame; exists l; (split; [assumption|split; reflexivity]).
Qed.
Lemma frame_trans (a b c : list (@layer idx)) : Forall2 frame a b -> Forall2 frame b c -> Forall2 frame a c.
Proof.
  intros H. revert c. induction H as [|x y a b H1 H IH]; intros c HC; inversion HC as [|? z ? c' H2 HC' E1 E2]; subst; constructor; [|auto].
  destruct H1, H2. split; congruence.
Qed.
Lemma frame_refl (a : list (@layer idx)) : Forall2 frame a a.
Proof. induction a; constructor; auto. split; reflexivity. Qed.
End Places.

(** * Theorems *)
Section Theorems.
Context {idx : Type}.
Implicit Types st : list (@layer idx).
Lemma write_all_read ps : forall st v st', write_all st ps v = (st', None) -> NoDup ps -> length v = length ps ->
  read_all st' ps = Ok v /\ (forall q, ~ In q ps -> read_place st' q = read_place st q) /\ Forall2 frame st st'.
Proof.
  induction ps as [|p ps IH]; intros st v st' H HN HL; destruct v as [|x v]; cbn in HL; try lia.
  - cbn in H. injection H as <-. split; [reflexivity|]. split; [reflexivity|apply frame_refl].
  - cbn in H. destruct (write_place st p x) as [st1|] eqn:E; [|discriminate]. inversion HN as [|? ? N1 N2]; subst.
    destruct (IH st1 v st' H N2) as (I1 & I2 & I3); [lia|]. split; [|split].
    + cbn [read_all]. rewrite I2 by exact N1. rewrite (read_write _ _ _ _ E). destruct (place_eq p p); [|congruence]. cbn [bindR]. rewrite I1. reflexivity.
    + intros q Hq. cbn in Hq. rewrite I2 by tauto. rewrite (read_write _ _ _ _ E). destruct (place_eq p q); [|reflexivity]. subst. tauto.
    + eapply frame_trans; [|exact I3]. eapply write_frame. exact E.
Qed.
Lemma write_all_ok ps : forall st v, (forall p, In p ps -> is_ok (read_place st p) = true) -> (length ps <= length v)%nat ->
  exists st', write_all st ps v = (st', None).
Proof.
  induction ps as [|p ps IH]; intros st v HR HL; [eexists; reflexivity|]. destruct v as [|x v]; cbn in HL; [lia|]. cbn.
  destruct (write_ok st p x) as [st1 E]; [apply HR; now left|]. rewrite E. apply IH; [|lia].
  intros q Hq. rewrite (read_write _ _ _ _ E). destruct (place_eq p q); [reflexivity|]. apply HR. now right.
Qed.
(** Setting variables that exist and are different sets them to the values, in order, and nothing else. *)
Theorem C184_update : forall st vars v, NoDup (places vars) -> (forall p, In p (places vars) -> is_ok (read_place st p) = true) ->
  length v = length (places vars) ->
  exists st', update_variables st vars v = (st', None) /\ get_variables st' vars = Ok v /\
  (forall q, ~ In q (places vars) -> read_place st' q = read_place st q) /\ Forall2 frame st st'.
Proof.
  intros st vars v HN HR HL. destruct (write_all_ok (places vars) st v HR) as [st' H]; [lia|]. exists st'. split; [exact H|].
  now apply write_all_read.
Qed.
(** Setting them to what they are changes nothing. *)
Theorem C184_same : forall st vars v, get_variables st vars = Ok v -> update_variables st vars v = (st, None).
Proof.
  intros st vars v. unfold get_variables, update_variables. generalize (places vars). intros ps. revert v.
  induction ps as [|p ps IH]; intros v H; cbn in *; [injection H as <-; reflexivity|].
  destruct (read_place st p) as [x|] eqn:E; [|discriminate]. cbn [bindR] in H. destruct (read_all st ps) as [vs|] eqn:E2; [|discriminate]. cbn [bindR] in H.
  injection H as <-. rewrite (write_same _ _ _ E). now apply IH.
Qed.
(** The values are in the order of the list of variables: layer by layer. *)
Theorem C184_order : forall st vars its v, get_variables st (vars ++ [its]) = Ok v ->
  exists v1 v2, v = v1 ++ v2 /\ get_variables st vars = Ok v1 /\ read_all st (layer_places (length vars) 0 its) = Ok v2.
Proof.
  intros st vars its v. unfold get_variables, places. assert (P : forall vs i, places_from i (vs ++ [its]) = places_from i vs ++ layer_places (i + length vs) 0 its).
  { induction vs as [|x vs IH]; intros i; cbn; [now rewrite Nat.add_0_r, app_nil_r|]. rewrite IH, <- app_assoc. do 2 f_equal. f_equal. lia. }
  rewrite P. cbn [Nat.add]. generalize (places_from 0 vars). intros ps. revert v. induction ps as [|p ps IH]; intros v H; cbn in *.
  - exists [], v. auto.
  - destruct (read_place st p) as [x|]; [|discriminate]. cbn [bindR] in *. destruct (read_all st (ps ++ _)) as [vs|] eqn:E; [|discriminate]. cbn [bindR] in H. injection H as <-.
    destruct (IH vs eq_refl) as (v1 & v2 & -> & -> & H2). exists (x :: v1), v2. cbn [bindR]. auto.
Qed.
(** Too few values are an IndexError; the first variables have changed by then. *)
Theorem C184_short : forall st vars v, NoDup (places vars) -> (forall p, In p (places vars) -> is_ok (read_place st p) = true) ->
  (length v < length (places vars))%nat ->
  exists st', update_variables st vars v = (st', Some IndexError) /\ read_all st' (firstn (length v) (places vars)) = Ok v.
Proof.
  intros st vars v. unfold update_variables. generalize (places vars). intros ps HN HR HL. revert st v HR HL.
  assert (G : forall ps st v, (forall p, In p ps -> is_ok (read_place st p) = true) -> (length v < length ps)%nat ->
     exists st', write_all st ps v = (st', Some IndexError) /\ write_all st (firstn (length v) ps) v = (st', None)).
  { clear. induction ps as [|p ps IH]; intros st v HR HL; cbn in HL; [lia|]. destruct v as [|x v]; cbn; [exists st; auto|]. cbn in HL.
    destruct (write_ok st p x) as [st1 E]; [apply HR; now left|]. rewrite E. apply IH; [|lia].
    intros q Hq. rewrite (read_write _ _ _ _ E). destruct (place_eq p q); [reflexivity|]. apply HR. now right. }
  intros st v HR HL. destruct (G ps st v HR HL) as (st' & H1 & H2). exists st'. split; [exact H1|].
  assert (HN' : NoDup (firstn (length v) ps)).
  { rewrite <- (firstn_skipn (length v) ps) in HN. clear - HN. revert HN. generalize (firstn (length v) ps) (skipn (length v) ps). intros a b.
    induction a as [|x a IH]; cbn; intros H; [constructor|]. inversion H as [|? ? Q1 Q2]; subst. constructor; [|auto]. intros Q. apply Q1. apply in_or_app. now left. }
  apply (write_all_read _ st v st' H2 HN'). rewrite firstn_length. lia.
Qed.

Context (nk : dmodel -> list R -> idx) (ellips : list idx -> list R -> R -> list R -> list R * list R).
(** ** The error *)
(** What is cached of a layer, at these wavelengths, is what the layer is now. *)
Definition fresh (rg : list R) (l : layer) : Prop :=
  match StackModel.lookup wl_dec rg (cache l) with Some x => x = current nk l rg | None => True end.
(** The error as a function of the layers, psi weighted with its value: the sum over all angles and points *)
Definition misfit (e : ell) (rg : list R) (st : list layer) : option R :=
  sum_opt (map (angle_sum e rg (fun a => ellips (map (fun l => current nk l rg) st) (map width st) a rg)) (angles e)).
Lemma indices_fresh rg l : fresh rg l -> fst (indices nk l rg) = current nk l rg.
Proof. unfold fresh, indices, StackModel.cached. destruct (StackModel.lookup wl_dec rg (cache l)) eqn:E; cbn; auto. Qed.
Lemma stack_indices_fresh rg st : Forall (fresh rg) st -> fst (stack_indices nk st rg) = map (fun l => current nk l rg) st.
Proof. induction 1 as [|l st H HF IH]; cbn [stack_indices fst snd map]; [reflexivity|]. now rewrite IH, indices_fresh. Qed.
Lemma stack_indices_layers rg st : Forall2 (fun l l' => width l' = width l /\ mdl l' = mdl l /\ raw l' = raw l) st (snd (stack_indices nk st rg)).
Proof. induction st; cbn; constructor; auto. Qed.
(** With fresh caches the error is that of the stack as it is. *)
Theorem C184_mse : forall e rg vars st, Forall (fresh rg) st ->
  fst (mse nk ellips e (Some rg) vars st None) = error_of (elements e) 0 (misfit e rg st).
Proof. intros e rg vars st HF. unfold mse. cbn. rewrite stack_indices_fresh by exact HF. reflexivity. Qed.
Lemma current_mdl l l' rg : mdl l' = mdl l -> raw l' = raw l -> current nk l' rg = current nk l rg.
Proof. intros H1 H2. unfold current. now rewrite H1, H2. Qed.
(** Evaluating keeps them fresh and leaves all variables alone. *)
Theorem C184_mse_frame : forall e rg vars st rg', Forall (fresh rg') st ->
  Forall (fresh rg') (snd (mse nk ellips e (Some rg) vars st None)) /\
  (forall p, read_place (snd (mse nk ellips e (Some rg) vars st None)) p = read_place st p).
Proof.
  intros e rg vars st rg' HF. unfold mse. cbn. split.
  - induction HF as [|l st H HF IH]; cbn; [constructor|]. constructor; [|exact IH]. unfold fresh, indices, StackModel.cached in *. cbn.
    destruct (StackModel.lookup wl_dec rg (cache l)) eqn:E; cbn.
    + destruct (StackModel.lookup wl_dec rg' (cache l)); [|exact I]. rewrite H. apply current_mdl; reflexivity.
    + destruct (wl_dec rg rg') as [->|]; [apply current_mdl; reflexivity|]. destruct (StackModel.lookup wl_dec rg' (cache l)); [|exact I]. rewrite H. apply current_mdl; reflexivity.
  - intros p. assert (Q := stack_indices_layers rg st). revert Q. generalize (snd (stack_indices nk st rg)). intros st' Q.
    assert (G : forall i, match nth_error st i, nth_error st' i with Some l, Some l' => width l' = width l /\ mdl l' = mdl l | None, None => True | _, _ => False end).
    { clear - Q. induction Q as [|l l' a b (H1 & H2 & _) Q IH]; intros [|i]; [exact I|exact I|split; assumption|exact (IH i)]. }
    destruct p as [i|i|i|i k n]; cbn; specialize (G i); destruct (nth_error st i), (nth_error st' i); try contradiction; try reflexivity; destruct G as [G1 G2]; rewrite ?G1, ?G2; reflexivity.
Qed.
(** The error is not negative and it is zero exactly if the calculation meets all points. *)
Lemma residual_spec rg m p : match residual rg m p with
  | Some x => 0 <= x /\ (x = 0 <-> np_interp rg (fst m) (nth 0 p 0 * 1000) = nth 1 p 0 /\ np_interp rg (snd m) (nth 0 p 0 * 1000) = nth 3 p 0)
  | None => nth 1 p 0 = 0 \/ nth 4 p 0 = 0 end.
Proof.
  unfold residual. destruct (Req_EM_T (nth 1 p 0) 0) as [|N1]; [now left|]. destruct (Req_EM_T (nth 4 p 0) 0) as [|N2]; [now right|].
  set (a := (nth 1 p 0 - np_interp rg (fst m) (nth 0 p 0 * 1000)) / nth 1 p 0).
  set (b := (nth 3 p 0 - np_interp rg (snd m) (nth 0 p 0 * 1000)) / nth 4 p 0).
  assert (Ha := pow2_ge_0 a). assert (Hb := pow2_ge_0 b). split; [lra|]. split.
  - intros H. assert (A : a = 0) by (apply Rsqr_0_uniq; unfold Rsqr; nra). assert (B : b = 0) by (apply Rsqr_0_uniq; unfold Rsqr; nra).
    unfold a, b in A, B. apply Rmult_integral in A as [A|A]; [|exfalso; revert A; now apply Rinv_neq_0_compat].
    apply Rmult_integral in B as [B|B]; [|exfalso; revert B; now apply Rinv_neq_0_compat]. split; lra.
  - intros [H1 H2]. unfold a, b. rewrite H1, H2. unfold Rminus. rewrite !Rplus_opp_r. unfold Rdiv. rewrite !Rmult_0_l. ring.
Qed.
Lemma sum_opt_spec l : (forall x, In (Some x) l -> 0 <= x) -> forall s, sum_opt l = Some s ->
  0 <= s /\ (s = 0 <-> forall y, In y l -> y = Some 0).
Proof.
  induction l as [|[a|] l IH]; cbn; intros H s E; [| |discriminate].
  - injection E as <-. split; [lra|]. split; [intros _ y []|reflexivity].
  - destruct (sum_opt l) as [b|] eqn:Q; [|discriminate]. injection E as <-. destruct (IH (fun x Hx => H x (or_intror Hx)) b eq_refl) as [B1 B2].
    assert (A := H a (or_introl eq_refl)). split; [lra|]. split.
    + intros S y [<-|Hy]; [f_equal; lra|]. apply B2; [lra|exact Hy].
    + intros Z. assert (Za := Z _ (or_introl eq_refl)). injection Za as ->. rewrite (proj2 B2); [lra|]. intros y Hy. apply Z. now right.
Qed.
Definition meets (e : ell) (rg : list R) (mods : R -> list R * list R) : Prop :=
  forall a p, In a (angles e) -> In p (rows_of a (data e)) ->
  np_interp rg (fst (mods a)) (nth 0 p 0 * 1000) = nth 1 p 0 /\ np_interp rg (snd (mods a)) (nth 0 p 0 * 1000) = nth 3 p 0.
Lemma total_spec e rg mods s : sum_opt (map (angle_sum e rg mods) (angles e)) = Some s -> 0 <= s /\ (s = 0 <-> meets e rg mods).
Proof.
  assert (R1 : forall a x, angle_sum e rg mods a = Some x -> 0 <= x /\ (x = 0 <-> forall p, In p (rows_of a (data e)) ->
     np_interp rg (fst (mods a)) (nth 0 p 0 * 1000) = nth 1 p 0 /\ np_interp rg (snd (mods a)) (nth 0 p 0 * 1000) = nth 3 p 0)).
  { intros a x H. unfold angle_sum in H. assert (HI := H). apply sum_opt_spec in H as [H1 H2].
    - split; [exact H1|]. rewrite H2. clear H1 H2. split; intros G.
      + intros p Hp. specialize (G _ (in_map (residual rg (mods a)) _ _ Hp)). assert (S := residual_spec rg (mods a) p). rewrite G in S. now apply S.
      + intros y Hy. apply in_map_iff in Hy as (p & <- & Hp). assert (S := residual_spec rg (mods a) p).
        destruct (residual rg (mods a) p) as [r|] eqn:Q; [f_equal; apply S; now apply G|]. exfalso. clear - HI Hp Q.
        revert x HI. induction (rows_of a (data e)) as [|q l IH]; [destruct Hp|]. cbn. intros x. destruct Hp as [->|Hp]; [now rewrite Q|].
        destruct (residual rg (mods a) q); [|discriminate]. destruct (sum_opt (map (residual rg (mods a)) l)); [|discriminate]. intros _. exact (IH Hp _ eq_refl).
    - intros y Hy. apply in_map_iff in Hy as (p & Hp & _). assert (S := residual_spec rg (mods a) p). rewrite Hp in S. apply S. }
  intros H. assert (HI := H). apply sum_opt_spec in H as [H1 H2].
  - split; [exact H1|]. rewrite H2. split; intros G.
    + intros a p Ha Hp. specialize (G _ (in_map (angle_sum e rg mods) _ _ Ha)). destruct (R1 a 0 G) as [_ Q]. now apply Q.
    + intros y Hy. apply in_map_iff in Hy as (a & <- & Ha). destruct (angle_sum e rg mods a) as [x|] eqn:Q.
      * f_equal. apply (R1 a x Q). intros p Hp. now apply G.
      * exfalso. clear - HI Ha Q. revert s HI. induction (angles e) as [|b l IH]; [destruct Ha|]. cbn. intros s. destruct Ha as [->|Ha]; [now rewrite Q|].
        destruct (angle_sum e rg mods b); [|discriminate]. destruct (sum_opt (map (angle_sum e rg mods) l)); [|discriminate]. intros _. exact (IH Ha _ eq_refl).
  - intros y Hy. apply in_map_iff in Hy as (a & Ha & _). now apply (R1 a y).
Qed.
Theorem C184_zero : forall e rg vars st m, Forall (fresh rg) st -> (0 < elements e)%nat ->
  fst (mse nk ellips e (Some rg) vars st None) = Ok (Some m) ->
  0 <= m /\ (m = 0 <-> meets e rg (fun a => ellips (map (fun l => current nk l rg) st) (map width st) a rg)).
Proof.
  intros e rg vars st m HF HE H. rewrite C184_mse in H by exact HF. unfold error_of in H.
  destruct (Nat.eqb_spec (2 * elements e) 0); [lia|]. unfold misfit in H. destruct (sum_opt _) as [s|] eqn:E; [|discriminate].
  apply total_spec in E as [E1 E2].
  assert (HP : 0 < 2 * INR (elements e)) by (apply lt_INR in HE; cbn in HE; lra).
  assert (HQ : 0 < 1 / (2 * INR (elements e) - INR 0)) by (cbn; apply Rdiv_lt_0_compat; lra).
  set (k := 1 / (2 * INR (elements e) - INR 0)) in *. destruct (Rle_dec 0 (k * s)) as [G|G]; [|discriminate]. injection H as <-.
  split; [apply sqrt_pos|]. rewrite <- E2. split; intros Z.
  - apply sqrt_eq_0 in Z; [|exact G]. apply Rmult_integral in Z as [Z|Z]; [lra|exact Z].
  - rewrite Z, Rmult_0_r. apply sqrt_0.
Qed.

(** ** Cached optical constants *)
(** Every layer has been asked for its optical constants at these wavelengths. *)
Definition asked (rg : list R) (l : @layer idx) : Prop := StackModel.lookup wl_dec rg (cache l) <> None.
Lemma indices_frame rg l l' : frame l l' -> asked rg l -> fst (indices nk l' rg) = fst (indices nk l rg) /\ asked rg (snd (indices nk l' rg)) .
Proof.
  intros [H1 H2] HA. unfold indices, StackModel.cached, asked in *. rewrite H2. destruct (StackModel.lookup wl_dec rg (cache l)) eqn:E; [|congruence]. cbn. split; [reflexivity|]. try rewrite H2. rewrite E. discriminate.
Qed.
Lemma stack_frame rg st st' : Forall2 frame st st' -> Forall (asked rg) st ->
  fst (stack_indices nk st' rg) = fst (stack_indices nk st rg) /\ Forall (asked rg) (snd (stack_indices nk st' rg)).
Proof.
  induction 1 as [|l l' a b H HF IH]; cbn [stack_indices fst snd]; intros HA; [split; [reflexivity|constructor]|]. inversion HA as [|? ? A1 A2]; subst.
  destruct (indices_frame rg l l' H A1) as [-> Q1]. destruct (IH A2) as [-> Q2]. split; [reflexivity|constructor; assumption].
Qed.
Lemma mse_asks e rg vars st v m : fst (mse nk ellips e (Some rg) vars st v) = Ok m -> Forall (asked rg) (snd (mse nk ellips e (Some rg) vars st v)).
Proof.
  unfold mse. destruct (match v with Some v => _ | None => _ end) as [st1 [x|]]; [discriminate|]. cbn. intros _.
  induction st1 as [|l st1 IH]; cbn; constructor; [|exact IH]. unfold asked, indices, StackModel.cached. cbn.
  destruct (StackModel.lookup wl_dec rg (cache l)) eqn:E; cbn; [rewrite E; discriminate|]. destruct (wl_dec rg rg); [discriminate|congruence].
Qed.
Lemma places_widths vars st v st' : (forall p, In p (places vars) -> exists i, p = PWidth i) -> update_variables st vars v = (st', None) ->
  Forall2 (fun l l' => mdl l' = mdl l /\ frame l l') st st'.
Proof.
  unfold update_variables. generalize (places vars). intros ps HP. revert st v. induction ps as [|p ps IH]; intros st v H; cbn in H.
  - injection H as <-. clear. induction st; constructor; auto. repeat split.
  - destruct v as [|x v]; [discriminate|]. destruct (write_place st p x) as [st1|] eqn:E; [|discriminate].
    assert (Q : Forall2 (fun l l' => mdl l' = mdl l /\ frame l l') st st1).
    { destruct (HP p (or_introl eq_refl)) as [i ->]. cbn in E. destruct (nth_error st i) as [l|] eqn:El; [|discriminate]. injection E as <-.
      clear - El. revert i El. induction st as [|a st IH]; intros [|i] El; cbn in *; try discriminate.
      - injection El as ->. constructor; [repeat split|]. clear. induction st; constructor; auto. repeat split.
      - constructor; [repeat split|now apply IH]. }
    specialize (IH (fun q Hq => HP q (or_intror Hq)) st1 v H). clear - Q IH. revert st' IH. induction Q as [|a b s t (A1 & A2 & A3) Q IHQ]; intros st' HF; inversion HF as [|? c ? u (B1 & B2 & B3) HF' E1 E2]; subst; constructor; [|auto].
    repeat split; congruence.
Qed.
(** Fits of widths only use the right optical constants. *)
Theorem C184_widths : forall e rg vars st v m, (forall p, In p (places vars) -> exists i, p = PWidth i) -> Forall (fresh rg) st ->
  fst (mse nk ellips e (Some rg) vars st (Some v)) = Ok m ->
  exists st', update_variables st vars v = (st', None) /\ Ok m = error_of (elements e) (length v) (misfit e rg st') /\ Forall (fresh rg) st'.
Proof.
  intros e rg vars st v m HP HF H. unfold mse in H. destruct (update_variables st vars v) as [st' [x|]] eqn:E; [discriminate|]. cbn in H.
  exists st'. split; [reflexivity|]. assert (Q := places_widths vars st v st' HP E).
  assert (HF' : Forall (fresh rg) st').
  { clear - Q HF. induction Q as [|l l' a b (Q1 & Q2 & Q3) Q IH]; [constructor|]. inversion HF as [|? ? F1 F2]; subst. constructor; [|auto].
    unfold fresh in *. rewrite Q3. destruct (StackModel.lookup wl_dec rg (cache l)); [|exact I]. rewrite F1. symmetry. now apply current_mdl. }
  split; [|exact HF']. rewrite <- H. rewrite stack_indices_fresh by exact HF'. reflexivity.
Qed.
(** Once the error was calculated at these wavelengths, parameters of the models have no effect on it: it
    depends on the widths and the number of variables only. *)
Theorem C184_frozen : forall e rg vars st st1 st2 v1 v2, Forall (asked rg) st ->
  update_variables st vars v1 = (st1, None) -> update_variables st vars v2 = (st2, None) ->
  length v1 = length v2 -> map width st1 = map width st2 ->
  fst (mse nk ellips e (Some rg) vars st (Some v1)) = fst (mse nk ellips e (Some rg) vars st (Some v2)).
Proof.
  intros e rg vars st st1 st2 v1 v2 HA U1 U2 HL HW. unfold mse. rewrite U1, U2. cbn.
  assert (W : forall ps (s : list (@layer idx)) v s', write_all s ps v = (s', None) -> Forall2 frame s s').
  { clear. induction ps as [|p ps IH]; intros s v s' H; cbn in H; [injection H as <-; apply (@frame_refl idx)|]. destruct v as [|x v]; [discriminate|].
    destruct (write_place s p x) as [s1|] eqn:E; [|discriminate]. eapply frame_trans; [eapply write_frame; exact E|]. eapply IH. exact H. }
  destruct (stack_frame rg st st1 (W _ _ _ _ U1) HA) as [-> _]. destruct (stack_frame rg st st2 (W _ _ _ _ U2) HA) as [-> _]. now rewrite HL, HW.
Qed.
(** ** The fit *)
Lemma mse_reads e range vars st v : (forall p, In p (places vars) -> is_ok (read_place st p) = true) ->
  forall p, In p (places vars) -> is_ok (read_place (snd (mse nk ellips e range vars st (Some v))) p) = true.
Proof.
  intros HR. unfold mse. destruct range as [rg|]; [|exact HR].
  assert (W : forall ps (s : list (@layer idx)) v s' x, write_all s ps v = (s', x) -> forall q, is_ok (read_place s q) = true -> is_ok (read_place s' q) = true).
  { clear. induction ps as [|p ps IH]; intros s v s' x H q Hq; cbn in H; [injection H as <- _; exact Hq|]. destruct v as [|y v]; [injection H as <- _; exact Hq|].
    destruct (write_place s p y) as [s1|] eqn:E; [|injection H as <- _; exact Hq]. eapply IH; [exact H|]. rewrite (read_write _ _ _ _ E). destruct (place_eq p q); [reflexivity|exact Hq]. }
  destruct (update_variables st vars v) as [st1 [x|]] eqn:E; cbn; intros p Hp; [eapply W; [exact E|auto]|].
  assert (G := stack_indices_layers rg st1). revert G. generalize (snd (stack_indices nk st1 rg)). intros st' G.
  assert (Hr : is_ok (read_place st1 p) = true) by (eapply W; [exact E|auto]).
  assert (HG : forall i, match nth_error st1 i, nth_error st' i with Some l, Some l' => width l' = width l /\ mdl l' = mdl l | None, None => True | _, _ => False end).
  { clear - G. induction G as [|l l' a b (H1 & H2 & _) Q IH]; intros [|i]; [exact I|exact I|split; assumption|exact (IH i)]. }
  destruct p as [i|i|i|i k n]; cbn in *; specialize (HG i); destruct (nth_error st1 i), (nth_error st' i); try contradiction; try exact Hr; destruct HG as [G1 G2]; rewrite ?G2; exact Hr.
Qed.
(** The fit leaves the variables at the result of the minimiser, whatever was tried on the way. *)
Theorem C184_fit : forall e range vars st tried x, NoDup (places vars) -> (forall p, In p (places vars) -> is_ok (read_place st p) = true) ->
  length x = length (places vars) ->
  exists st', fit nk ellips e range vars st tried x = (st', None) /\ get_variables st' vars = Ok x.
Proof.
  intros e range vars st tried x HN HR HL. unfold fit.
  assert (HR' : forall p, In p (places vars) -> is_ok (read_place (fold_left (fun s v => snd (mse nk ellips e range vars s (Some v))) tried st) p) = true).
  { revert st HR. induction tried as [|v tried IH]; intros st HR; cbn; [exact HR|]. apply IH. now apply mse_reads. }
  destruct (C184_update _ vars x HN HR' HL) as (st' & H1 & H2 & _). now exists st'.
Qed.
End Theorems.

(** ** Uncertainties *)
(** Correlations of a variable with itself are one, those of others lie between -1 and 1. *)
Theorem C184_correlations : forall c i j, 0 < nth i (nth i c []) 0 -> 0 < nth j (nth j c []) 0 -> nth j (nth i c []) 0 = nth i (nth j c []) 0 ->
  (nth j (nth i c []) 0) ^ 2 <= nth i (nth i c []) 0 * nth j (nth j c []) 0 ->
  correlation c i i = 1 /\ correlation c i j = correlation c j i /\ -1 <= correlation c i j <= 1.
Proof.
  intros c i j Pi Pj HS HD. unfold correlation. rewrite <- HS.
  set (a := nth i (nth i c []) 0) in *. set (b := nth j (nth j c []) 0) in *. set (x := nth j (nth i c []) 0) in *. clearbody a b x.
  assert (Sa := sqrt_lt_R0 a Pi). assert (Sb := sqrt_lt_R0 b Pj). assert (Qa := sqrt_sqrt a (Rlt_le _ _ Pi)). assert (Qb := sqrt_sqrt b (Rlt_le _ _ Pj)).
  split; [rewrite Qa; field; lra|]. split; [field; split; lra|].
  assert (H : - (sqrt a * sqrt b) <= x <= sqrt a * sqrt b).
  { assert (HX : Rabs x <= sqrt a * sqrt b).
    { apply Rsqr_incr_0_var; [|nra]. rewrite <- Rsqr_abs. unfold Rsqr. replace (sqrt a * sqrt b * (sqrt a * sqrt b)) with (a * b) by (rewrite <- Qa at 1; rewrite <- Qb at 1; ring). nra. }
    split; [|eapply Rle_trans; [apply Rle_abs|exact HX]]. assert (Q := Rle_abs (- x)). rewrite Rabs_Ropp in Q. lra. }
  assert (P : 0 < sqrt a * sqrt b) by nra. split.
  - apply Rmult_le_reg_r with (sqrt a * sqrt b); [exact P|]. unfold Rdiv. rewrite Rmult_assoc, Rinv_l by lra. lra.
  - apply Rmult_le_reg_r with (sqrt a * sqrt b); [exact P|]. unfold Rdiv. rewrite Rmult_assoc, Rinv_l by lra. lra.
Qed.

(** Property C60 (the cache of material classes). *)
From Coq Require Import Reals String Ascii List Bool Lia Lra.
From Verif Require Import Common ParamModel ParamProps MaterialModel.
From Coq Require Import List.
Import ListNotations.
Open Scope string_scope.
Open Scope list_scope.

(** * Specification *)

(** The source configured for a material by a sequence of assignments (source, value):
    the last one whose name agrees up to case. *)
Fixpoint configured (n : string) (l : list (string * string)) : option string :=
  match l with
  | [] => None
  | (s, v) :: l' => match configured n l' with
                    | Some w => Some w
                    | None => if String.eqb (lower s) (lower n) then Some v else None
                    end
  end.
Definition reads (os : list mop) : list (string * string) :=
  flat_map (fun o => match o with Read s v => [(s, v)] | _ => [] end) os.
(** Is the material in the database of the parameter system? *)
Definition listed (st : mstate) (n : string) : bool := match lookup (m_db st) n with Some _ => true | None => false end.
(** Names that do not end like the keys of another kind. *)
Definition clean (n : string) : Prop := forall m, n <> (m ++ "_sopra")%string /\ n <> (m ++ "_nk")%string.
Definition clean_op (o : mop) : Prop := match o with Material n _ _ => clean n | _ => True end.
Definition kind_eqb (a b : mkind) : bool := match a, b with Parameterised, Parameterised | Sopra, Sopra | Nk, Nk => true | _, _ => false end.

(** * Dictionaries and strings *)

Lemma append_nil s : (s ++ "")%string = s.
Proof. induction s as [|a s IH]; [reflexivity|]. simpl. now rewrite IH. Qed.
Lemma lookup_dset {A} k (v : A) l k' : lookup (dset k v l) k' = if String.eqb k k' then Some v else lookup l k'.
Proof.
  unfold dset. cbn [lookup]. destruct (String.eqb_spec k k') as [|N]; [reflexivity|]. apply lookup_remove. congruence.
Qed.
Lemma append_length a b : String.length (a ++ b) = (String.length a + String.length b)%nat.
Proof. induction a as [|c a IH]; simpl; [reflexivity|]. now rewrite IH. Qed.
Lemma append_inj a b c d : (a ++ c)%string = (b ++ d)%string -> String.length c = String.length d -> a = b /\ c = d.
Proof.
  revert b. induction a as [|x a IH]; intros [|y b] E L; simpl in *.
  - auto.
  - exfalso. assert (H : String.length c = String.length (String y (b ++ d))) by now rewrite E. simpl in H. rewrite append_length in H. lia.
  - exfalso. assert (H : String.length d = String.length (String x (a ++ c))) by now rewrite E. simpl in H. rewrite append_length in H. lia.
  - injection E as -> E. destruct (IH _ E L) as [-> ->]. auto.
Qed.
Lemma append_assoc a b c : ((a ++ b) ++ c)%string = (a ++ b ++ c)%string.
Proof. induction a as [|x a IH]; simpl; [reflexivity|]. now rewrite IH. Qed.
Lemma sopra_nk a b : (a ++ "_sopra")%string <> (b ++ "_nk")%string.
Proof.
  intros E. change "_sopra" with ("_so" ++ "pra")%string in E. rewrite <- append_assoc in E.
  apply append_inj in E as [_ E]; [discriminate|reflexivity].
Qed.

Section Props.
Context (sopra_has : string -> bool) (sopra_x : string -> option string).
Notation material := (material sopra_has sopra_x).
Notation mstep := (mstep sopra_has sopra_x).
Notation mrun := (mrun sopra_has sopra_x).

(** What a request asks for: the kind of material the documentation promises. *)
Definition expected (st : mstate) (n : string) (sopra nk : bool) : mkind :=
  if sopra then (if sopra_has n then Sopra else Parameterised)
  else if nk then Nk
  else if listed st n then Parameterised else Sopra.
Definition suffix (k : mkind) : string := match k with Parameterised => "" | Sopra => "_sopra" | Nk => "_nk" end.

(** * Unfolding a request *)

Lemma material_ok st n sp nk st1 c : material st n sp nk = (st1, Ok c) ->
  let key := (n ++ suffix (expected st n sp nk))%string in
  (lookup (m_known st) key = Some c /\ st1 = st) \/
  (lookup (m_known st) key = None /\ c_id c = m_next st /\ c_name c = n /\ c_kind c = expected st n sp nk /\
   st1 = mkM (dset key c (m_known st)) (m_sources st) (m_db st) (S (m_next st)) /\
   (c_kind c = Parameterised -> exists opts, lookup (m_db st) n = Some opts /\
      c_comp c = match lookup opts "x" with Some x => [x] | None => [] end /\
      c_dir c = match lookup (m_sources st) (lower n) with
                | Some d => Some (d, match c_comp c with [] => ".txt" | _ => "" end) | None => None end)).
Proof.
  unfold MaterialModel.material, suffix_of, expected, listed. intros H.
  assert (P : sp = false -> nk = false -> forall opts, lookup (m_db st) n = Some opts -> lookup (m_known st) n = None ->
    parameterised_material st n = (st1, Ok c) ->
    c_id c = m_next st /\ c_name c = n /\ c_kind c = Parameterised /\
    st1 = mkM (dset n c (m_known st)) (m_sources st) (m_db st) (S (m_next st)) /\
    (c_kind c = Parameterised -> exists opts, lookup (m_db st) n = Some opts /\
      c_comp c = match lookup opts "x" with Some x => [x] | None => [] end /\
      c_dir c = match lookup (m_sources st) (lower n) with
                | Some d => Some (d, match c_comp c with [] => ".txt" | _ => "" end) | None => None end)).
  { intros _ _ opts Eo _ E. unfold parameterised_material in E. rewrite Eo in E. unfold register in E. injection E as <- <-.
    cbn. do 3 (split; [reflexivity|]). split; [reflexivity|]. intros _. exists opts. auto. }
  assert (S : sopra_has n = true -> sopra_material sopra_has sopra_x st n = (st1, Ok c) ->
    c_id c = m_next st /\ c_name c = n /\ c_kind c = Sopra /\
    st1 = mkM (dset (n ++ "_sopra") c (m_known st)) (m_sources st) (m_db st) (S (m_next st))).
  { intros Eh E. unfold sopra_material in E. rewrite Eh in E. unfold register in E. injection E as <- <-. cbn. auto. }
  destruct sp.
  - destruct (sopra_has n) eqn:Eh; cbn [suffix].
    + destruct (lookup (m_known st) (n ++ "_sopra")%string) as [c'|] eqn:El; [injection H as <- <-; left; auto|].
      right. split; [reflexivity|]. destruct (S eq_refl H) as (S1 & S2 & S3 & S4). rewrite S3. repeat split; auto. discriminate.
    + destruct (lookup (m_known st) (n ++ "")%string) as [c'|] eqn:El; [injection H as <- <-; left; auto|].
      unfold sopra_material in H. rewrite Eh in H. discriminate.
  - destruct nk.
    + cbn [suffix]. destruct (lookup (m_known st) (n ++ "_nk")%string) as [c'|] eqn:El; [injection H as <- <-; left; auto|].
      right. split; [reflexivity|]. unfold nk_material, register in H. injection H as <- <-. cbn. repeat split; auto. discriminate.
    + destruct (lookup (m_db st) n) as [opts|] eqn:Eo; cbn [suffix].
      * rewrite append_nil in *. destruct (lookup (m_known st) n) as [c'|] eqn:El; [injection H as <- <-; left; auto|].
        right. split; [reflexivity|]. destruct (P eq_refl eq_refl opts eq_refl eq_refl H) as (S1 & S2 & S3 & S4 & S5). rewrite S3. repeat split; auto.
      * destruct (sopra_has n) eqn:Eh; [|discriminate].
        destruct (lookup (m_known st) (n ++ "_sopra")%string) as [c'|] eqn:El; [injection H as <- <-; left; auto|].
        right. split; [reflexivity|]. destruct (S eq_refl H) as (S1 & S2 & S3 & S4). rewrite S3. repeat split; auto. discriminate.
Qed.
(** A failed request changes nothing. *)
Lemma material_err st n sp nk st1 e : material st n sp nk = (st1, Err e) -> st1 = st.
Proof.
  unfold MaterialModel.material. destruct (suffix_of _ _ _ _ _) as [[s sp']|]; [|congruence].
  destruct (lookup _ _); [discriminate|]. unfold sopra_material, nk_material, parameterised_material, register.
  destruct sp'; [destruct (sopra_has n); congruence|]. destruct nk; [discriminate|]. destruct (lookup (m_db st) n); congruence.
Qed.
(** Known materials are never forgotten or replaced. *)
Lemma known_stays st o k c : lookup (m_known st) k = Some c -> lookup (m_known (mstep st o)) k = Some c.
Proof.
  intros H. destruct o as [s v|n sp nk|db]; [exact H| |exact H]. cbn [MaterialModel.mstep].
  destruct (material st n sp nk) as [st1 [c1|e]] eqn:E; cbn [fst].
  - destruct (material_ok _ _ _ _ _ _ E) as [(_ & ->)|(N & _ & _ & _ & -> & _)]; [exact H|]. cbn [m_known]. rewrite lookup_dset.
    destruct (String.eqb_spec (n ++ suffix (expected st n sp nk)) k) as [<-|]; [congruence|exact H].
  - apply material_err in E. now subst.
Qed.
Lemma known_stays_run os : forall st k c, lookup (m_known st) k = Some c -> lookup (m_known (mrun st os)) k = Some c.
Proof. induction os as [|o os IH]; intros st k c H; [exact H|]. apply (IH (mstep st o)). now apply known_stays. Qed.
Lemma request_known st n sp nk st1 c : material st n sp nk = (st1, Ok c) ->
  lookup (m_known st1) (n ++ suffix (expected st n sp nk)) = Some c /\ m_db st1 = m_db st.
Proof.
  intros H. destruct (material_ok _ _ _ _ _ _ H) as [(L & ->)|(_ & _ & _ & _ & -> & _)]; [auto|].
  cbn [m_known m_db]. rewrite lookup_dset, String.eqb_refl. auto.
Qed.
Lemma request_hit st n sp nk c : lookup (m_known st) (n ++ suffix (expected st n sp nk)) = Some c ->
  (sp = false -> nk = false -> listed st n = true \/ sopra_has n = true) -> material st n sp nk = (st, Ok c).
Proof.
  unfold MaterialModel.material, suffix_of, expected, listed. intros H L. destruct sp.
  - destruct (sopra_has n); cbn [suffix] in H; now rewrite H.
  - destruct nk; [cbn [suffix] in H; now rewrite H|].
    destruct (lookup (m_db st) n); cbn [suffix] in H; [now rewrite H|].
    destruct (L eq_refl eq_refl) as [X|X]; [discriminate|]. rewrite X. now rewrite H.
Qed.
Lemma request_listed st n st1 c : material st n false false = (st1, Ok c) -> listed st n = true \/ sopra_has n = true.
Proof.
  unfold MaterialModel.material, suffix_of, listed. destruct (lookup (m_db st) n); [now left|]. destruct (sopra_has n); [now right|discriminate].
Qed.

(** C60 (first part): a request that succeeded returns the very same class whenever it is
    repeated, whatever happened in between, as long as the parameter database still (or
    still does not) have the material. *)
Theorem C60_same : forall st n sp nk st1 c os,
  material st n sp nk = (st1, Ok c) -> listed (mrun st1 os) n = listed st n ->
  material (mrun st1 os) n sp nk = (mrun st1 os, Ok c).
Proof.
  intros st n sp nk st1 c os H L. destruct (request_known _ _ _ _ _ _ H) as [K D].
  assert (E : expected (mrun st1 os) n sp nk = expected st n sp nk) by (unfold expected; now rewrite L).
  apply request_hit.
  - rewrite E. now apply known_stays_run.
  - intros -> ->. rewrite L. exact (request_listed _ _ _ _ H).
Qed.

(** * Sources *)

Lemma sources_read st s v n : lookup (m_sources (read st s v)) (lower n) = if String.eqb (lower s) (lower n) then Some v else lookup (m_sources st) (lower n).
Proof. unfold read. cbn [m_sources]. apply lookup_dset. Qed.
Lemma configured_app n l l' : configured n (l ++ l') = match configured n l' with Some w => Some w | None => configured n l end.
Proof.
  induction l as [|[s v] l IH]; cbn [app configured]; [now destruct (configured n l')|]. rewrite IH. now destruct (configured n l').
Qed.
Lemma sources_run os : forall st n, lookup (m_sources (mrun st os)) (lower n) =
  match configured n (reads os) with Some w => Some w | None => lookup (m_sources st) (lower n) end.
Proof.
  induction os as [|o os IH]; intros st n; [reflexivity|]. change (mrun st (o :: os)) with (mrun (mstep st o) os). rewrite IH.
  destruct o as [s v|m sp nk|db]; cbn [MaterialModel.mstep].
  - rewrite sources_read. cbn [reads flat_map app configured]. fold (reads os). destruct (configured n (reads os)); [reflexivity|].
    destruct (String.eqb (lower s) (lower n)); reflexivity.
  - change (reads (Material m sp nk :: os)) with (reads os). destruct (configured n (reads os)); [reflexivity|].
    destruct (material st m sp nk) as [st1 [c1|e]] eqn:E; cbn [fst].
    + destruct (material_ok _ _ _ _ _ _ E) as [(_ & ->)|(_ & _ & _ & _ & -> & _)]; reflexivity.
    + apply material_err in E. now subst.
  - change (reads (Database db :: os)) with (reads os). now destruct (configured n (reads os)).
Qed.
Lemma sources_start srcs db n : lookup (m_sources (mstart srcs db)) (lower n) = configured n srcs.
Proof.
  unfold mstart. cbn [m_sources]. set (F := fold_left _).
  assert (G : forall srcs acc, lookup (F srcs acc) (lower n) = match configured n srcs with Some w => Some w | None => lookup acc (lower n) end).
  { clear. induction srcs as [|[s v] srcs IH]; intros acc; [reflexivity|]. unfold F. cbn [fold_left fst snd]. fold F. rewrite IH, lookup_dset.
    cbn [configured]. destruct (configured n srcs); [reflexivity|]. destruct (String.eqb (lower s) (lower n)); reflexivity. }
  rewrite G. now destruct (configured n srcs).
Qed.

(** C60 (second part, restricted): the class made by the first request for a material
    points to the directory configured at that moment, the last assignment winning
    whatever its case.  Missing: later assignments (C60_stale_refuted). *)
Theorem C60_sources_partial : forall srcs db os n st1 c,
  let st := mrun (mstart srcs db) os in
  material st n false false = (st1, Ok c) -> listed st n = true -> lookup (m_known st) n = None ->
  c_kind c = Parameterised /\ c_name c = n /\
  option_map fst (c_dir c) = configured n (srcs ++ reads os) /\
  (forall e d, c_dir c = Some (d, e) -> (e = ".txt" <-> c_comp c = [])).
Proof.
  intros srcs db os n st1 c st H L N.
  assert (E : expected st n false false = Parameterised) by (unfold expected; now rewrite L).
  destruct (material_ok _ _ _ _ _ _ H) as [(K & _)|(_ & _ & Hn & Hk & _ & Hd)]; rewrite E in *; cbn [suffix] in *.
  - rewrite append_nil in K. congruence.
  - split; [assumption|]. split; [assumption|]. destruct (Hd Hk) as (opts & _ & _ & D). rewrite D.
    unfold st. rewrite sources_run, sources_start, configured_app. split.
    + destruct (configured n (reads os)); [reflexivity|]. destruct (configured n srcs); reflexivity.
    + intros e d. destruct (match configured n (reads os) with Some w => Some w | None => configured n srcs end); [|discriminate].
      intros [= _ <-]. destruct (c_comp c); split; intros X; try reflexivity; discriminate.
Qed.

(** * Kinds *)

(** Reachable states: the key of a known class is its name with the suffix of its kind,
    its name is clean, and identities are fresh and distinct. *)
Definition known_inv (st : mstate) : Prop :=
  (forall k c, lookup (m_known st) k = Some c -> k = (c_name c ++ suffix (c_kind c))%string /\ clean (c_name c) /\ (c_id c < m_next st)%nat) /\
  (forall k k' c c', lookup (m_known st) k = Some c -> lookup (m_known st) k' = Some c' -> c_id c = c_id c' -> k = k').
Lemma inv_step st o : clean_op o -> known_inv st -> known_inv (mstep st o).
Proof.
  intros C [I J]. destruct o as [s v|n sp nk|db]; [split; assumption| |split; assumption]. cbn [MaterialModel.mstep].
  destruct (material st n sp nk) as [st1 [c1|e]] eqn:E; cbn [fst]; [|apply material_err in E; subst; now split].
  destruct (material_ok _ _ _ _ _ _ E) as [(_ & ->)|(N & Ei & En & Ek & -> & _)]; [now split|].
  unfold known_inv. cbn [m_known m_next]. split.
  - intros k c. rewrite lookup_dset. destruct (String.eqb_spec (n ++ suffix (expected st n sp nk)) k) as [<-|Nk].
    + intros [= <-]. rewrite En, Ek, Ei. split; [reflexivity|]. split; [exact C|lia].
    + intros K. destruct (I _ _ K) as (A & B & D). auto.
  - intros k k' c c'. rewrite !lookup_dset.
    destruct (String.eqb_spec (n ++ suffix (expected st n sp nk)) k) as [<-|Nk];
      destruct (String.eqb_spec (n ++ suffix (expected st n sp nk)) k') as [<-|Nk']; auto.
    + intros [= <-] K X. destruct (I _ _ K) as (_ & _ & B). lia.
    + intros K [= <-] X. destruct (I _ _ K) as (_ & _ & B). lia.
    + apply J.
Qed.
Lemma inv_run os : forall st, Forall clean_op os -> known_inv st -> known_inv (mrun st os).
Proof.
  induction os as [|o os IH]; intros st F I; [exact I|]. inversion F; subst. apply (IH (mstep st o)); [assumption|]. now apply inv_step.
Qed.
Lemma inv_start srcs db : known_inv (mstart srcs db).
Proof. split; intros; discriminate. Qed.
(** Keys of clean names are not ambiguous. *)
Lemma key_inj a b k l : clean a -> clean b -> (a ++ suffix k)%string = (b ++ suffix l)%string -> a = b /\ k = l.
Proof.
  intros A B E. destruct k, l; cbn [suffix] in E; rewrite ?append_nil in E.
  - auto. - exfalso. destruct (A b); congruence. - exfalso. destruct (A b); congruence.
  - exfalso. destruct (B a); congruence. - apply append_inj in E as [-> _]; auto. - exfalso. now apply sopra_nk in E.
  - exfalso. destruct (B a); congruence. - exfalso. symmetry in E. now apply sopra_nk in E. - apply append_inj in E as [-> _]; auto.
Qed.

(** C60 (third part): in a session whose material names do not end in _sopra or _nk,
    every request returns a class of the requested name and of the documented kind, and
    two requests return the same class exactly when name and kind agree. *)
Theorem C60_kind_partial : forall srcs db os n sp nk st1 c, Forall clean_op os -> clean n ->
  let st := mrun (mstart srcs db) os in
  material st n sp nk = (st1, Ok c) -> c_name c = n /\ c_kind c = expected st n sp nk.
Proof.
  intros srcs db os n sp nk st1 c F C st H.
  destruct (inv_run os (mstart srcs db) F (inv_start srcs db)) as [I _]. fold st in I.
  destruct (material_ok _ _ _ _ _ _ H) as [(K & _)|(_ & _ & A & B & _)]; [|auto].
  destruct (I _ _ K) as (E & Cc & _). destruct (key_inj _ _ _ _ C Cc E) as [<- <-]. auto.
Qed.
Theorem C60_distinct_partial : forall srcs db os n sp nk st1 c os' n' sp' nk' st2 c',
  Forall clean_op os -> Forall clean_op os' -> clean n -> clean n' ->
  let st := mrun (mstart srcs db) os in
  material st n sp nk = (st1, Ok c) -> material (mrun st1 os') n' sp' nk' = (st2, Ok c') ->
  (c_id c = c_id c' <-> n = n' /\ expected st n sp nk = expected (mrun st1 os') n' sp' nk') /\
  (c_id c = c_id c' -> c = c').
Proof.
  intros srcs db os n sp nk st1 c os' n' sp' nk' st2 c' F F' C C' st H H'.
  assert (Ist : known_inv st) by (apply inv_run; [assumption|apply inv_start]).
  assert (I1 : known_inv st1) by (replace st1 with (mstep st (Material n sp nk)) by (cbn; now rewrite H); apply inv_step; assumption).
  assert (I2 : known_inv (mrun st1 os')) by now apply inv_run.
  assert (I3 : known_inv st2).
  { replace st2 with (mstep (mrun st1 os') (Material n' sp' nk')) by (cbn; now rewrite H'). apply inv_step; assumption. }
  destruct (request_known _ _ _ _ _ _ H) as [K _]. destruct (request_known _ _ _ _ _ _ H') as [K' _].
  apply (known_stays_run os') in K. apply (known_stays _ (Material n' sp' nk')) in K. cbn [MaterialModel.mstep] in K. rewrite H' in K. cbn [fst] in K.
  destruct I3 as [_ J].
  assert (A : c_id c = c_id c' -> n = n' /\ expected st n sp nk = expected (mrun st1 os') n' sp' nk').
  { intros X. pose proof (J _ _ _ _ K K' X) as E. now apply key_inj in E. }
  split; [split; [exact A|]|].
  - intros [-> E]. rewrite E in K. congruence.
  - intros X. destruct (A X) as [-> E]. rewrite E in K. congruence.
Qed.
End Props.
Print Assumptions C60_same.
Print Assumptions C60_distinct_partial.

(** * Examples and disagreements *)

Definition ex_db : database := [("GaAs", [("band_gap", "1.42 eV")]); ("AlGaAs", [("x", "Al")])].
Definition ex_has (s : string) : bool := String.eqb s "GaAs" || String.eqb s "SIO2".
Definition ex_x (s : string) : option string := None.
Definition ex_start : mstate := mstart [("GaAs-Material", "/g"); ("gaas", "/a")] ex_db.
Lemma clean_short s : (String.length s < 3)%nat -> clean s.
Proof. intros L m. split; intros ->; rewrite append_length in L; simpl in L; lia. Qed.
Lemma clean_GaAs : clean "GaAs".
Proof.
  intros m. split; intros E.
  - assert (X : String.length "GaAs" = String.length (m ++ "_sopra")) by now rewrite E. rewrite append_length in X. simpl in X. lia.
  - change "GaAs" with ("G" ++ "aAs")%string in E. apply append_inj in E as [_ E]; [discriminate|reflexivity].
Qed.

Example C60_same_example : exists st1 c,
  material ex_has ex_x ex_start "GaAs" false false = (st1, Ok c) /\
  listed (mrun ex_has ex_x st1 [Read "GAAS" "/b"; Material "GaAs" true false; Material "SIO2" false false]) "GaAs" = listed ex_start "GaAs" /\
  c_dir c = Some ("/a", ".txt").
Proof. do 2 eexists. split; [reflexivity|]. split; reflexivity. Qed.
Example C60_sources_example :
  let st := mrun ex_has ex_x ex_start [Read "GAAS" "/b"; Read "GaAs" "/c"; Material "SIO2" false false] in
  exists st1 c, material ex_has ex_x st "GaAs" false false = (st1, Ok c) /\ listed st "GaAs" = true /\ lookup (m_known st) "GaAs" = None /\
  c_dir c = Some ("/c", ".txt").
Proof. cbv zeta. do 2 eexists. split; [reflexivity|]. repeat split; reflexivity. Qed.
Example C60_kind_example :
  Forall clean_op [Read "GAAS" "/b"; Material "GaAs" true false] /\ clean "GaAs" /\
  exists st1 c, material ex_has ex_x (mrun ex_has ex_x ex_start [Read "GAAS" "/b"; Material "GaAs" true false]) "GaAs" false false = (st1, Ok c) /\
  c_kind c = Parameterised /\ c_id c = 1%nat.
Proof.
  split; [apply Forall_cons; [exact I|apply Forall_cons; [exact clean_GaAs|apply Forall_nil]]|]. split; [exact clean_GaAs|]. do 2 eexists. split; [reflexivity|]. split; reflexivity.
Qed.

(** A source changed after the first request is ignored: the class keeps the old directory. *)
Theorem C60_stale_refuted : exists os n st1 c,
  material ex_has ex_x (mrun ex_has ex_x ex_start os) n false false = (st1, Ok c) /\
  option_map fst (c_dir c) = Some "/a" /\
  configured n ([("GaAs-Material", "/g"); ("gaas", "/a")] ++ reads os) = Some "/b".
Proof.
  exists [Material "GaAs" false false; Read "GaAs" "/b"], "GaAs". do 2 eexists. split; [reflexivity|]. split; reflexivity.
Qed.
(** Asking for the SOPRA data of a material that SOPRA does not have raises the first
    time, but silently returns the ordinary material once that has been used. *)
Theorem C60_sopra_refuted : exists n,
  snd (material ex_has ex_x ex_start n true false) = Err SOPRAError /\
  exists c, snd (material ex_has ex_x (mrun ex_has ex_x ex_start [Material n false false]) n true false) = Ok c /\ c_kind c = Parameterised.
Proof. exists "AlGaAs". split; [reflexivity|]. eexists. split; reflexivity. Qed.
(** A material whose name ends in _nk is confused with the refractiveindex.info data of
    another one. *)
Theorem C60_collision_refuted : exists db n st c,
  st = mrun ex_has ex_x (mstart [] db) [Material "Ge" false true] /\ listed st n = true /\
  material ex_has ex_x st n false false = (st, Ok c) /\ c_kind c = Nk /\ c_name c <> n.
Proof.
  exists [("Ge_nk", [])], "Ge_nk". do 2 eexists. split; [reflexivity|]. split; [reflexivity|]. split; [reflexivity|]. split; [reflexivity|discriminate].
Qed.

(** Properties C63 (module netlists), C101 (a module is a series connection) and
    C102 (dispersion of the photocurrents). *)
From Coq Require Import Reals String Ascii List Bool ZArith Arith Decimal DecimalString DecimalZ Lra Lia.
From Verif Require Import Common NpModel MatStrModel SpiceModel.
From Coq Require Import List.
Import ListNotations.
Open Scope R_scope.
Open Scope list_scope.

(** * Printed numbers are distinct *)

Lemma string_list_inj s s' : list_ascii_of_string s = list_ascii_of_string s' -> s = s'.
Proof. intros H. rewrite <- (string_of_list_ascii_of_string s), H. apply string_of_list_ascii_of_string. Qed.
Lemma Zto_int_nil z : Z.to_int z <> Decimal.Pos Decimal.Nil /\ Z.to_int z <> Decimal.Neg Decimal.Nil.
Proof.
  split; intros E; pose proof (DecimalZ.to_of (Z.to_int z)) as H; rewrite DecimalZ.of_to in H; rewrite E in H at 2;
    rewrite E in H; simpl in H; discriminate.
Qed.
Lemma str_int_inj z z' : str_int z = str_int z' -> z = z'.
Proof.
  unfold str_int. intros H. apply string_list_inj in H.
  pose proof (NilZero.isi (Z.to_int z) (proj1 (Zto_int_nil z)) (proj2 (Zto_int_nil z))) as E.
  pose proof (NilZero.isi (Z.to_int z') (proj1 (Zto_int_nil z')) (proj2 (Zto_int_nil z'))) as E'.
  rewrite H, E' in E. injection E as E. rewrite <- (DecimalZ.of_to z), <- (DecimalZ.of_to z'). now rewrite E.
Qed.

(** * Elements of a netlist *)

(** The elements, their names, and the models that are defined. *)
Definition elements (ls : list line) : list (text * nat * nat * device) :=
  flat_map (fun l => match l with Element nm a b d => [(nm, a, b, d)] | _ => [] end) ls.
Definition names (ls : list line) : list text := map (fun e => fst (fst (fst e))) (elements ls).
Definition models (ls : list line) : list (text * option (R * R * R)) :=
  flat_map (fun l => match l with ModelLine nm p => [(nm, p)] | _ => [] end) ls.

Lemma elements_app a b : elements (a ++ b) = elements a ++ elements b.
Proof. unfold elements. apply flat_map_app. Qed.
Lemma names_app a b : names (a ++ b) = names a ++ names b.
Proof. unfold names. now rewrite elements_app, map_app. Qed.
Lemma models_app a b : models (a ++ b) = models a ++ models b.
Proof. unfold models. apply flat_map_app. Qed.

(** The numbers used by the lines written between two values of the junction counter:
    sources in (lo, hi], diodes in (2 lo, 2 hi], even resistors in (2 lo, 2 hi] and odd
    resistors in [2 lo - 1, 2 hi - 3]. *)
Definition nm (c : ascii) (z : Z) : text := c :: str_int z.
Lemma nm_inj c z c' z' : nm c z = nm c' z' -> c = c' /\ z = z'.
Proof. unfold nm. generalize (str_int_inj z z'). generalize (str_int z), (str_int z'). intros a b H E. injection E as E E'. auto. Qed.
Definition fresh_between (lo hi : Z) (w : text) : Prop :=
  (exists z, w = nm "i" z /\ lo < z <= hi)%Z \/
  (exists z, w = nm "d" z /\ 2 * lo < z <= 2 * hi)%Z \/
  (exists z, w = nm "r" (2 * z) /\ lo < z <= hi)%Z \/
  (exists z, w = nm "r" (2 * z - 1) /\ lo <= z < hi)%Z.

Lemma fresh_sep lo mid hi w w' : (lo <= mid <= hi)%Z -> fresh_between lo mid w -> fresh_between mid hi w' -> w <> w'.
Proof.
  intros H F F' E. subst w'.
  destruct F as [(z & -> & ?)|[(z & -> & ?)|[(z & -> & ?)|(z & -> & ?)]]];
  destruct F' as [(z' & E & ?)|[(z' & E & ?)|[(z' & E & ?)|(z' & E & ?)]]]; apply nm_inj in E as [E0 E]; try discriminate E0; lia.
Qed.
Lemma fresh_weaken lo hi lo' hi' w : (lo' <= lo)%Z -> (hi <= hi')%Z -> fresh_between lo hi w -> fresh_between lo' hi' w.
Proof.
  intros H H' [(z & -> & ?)|[(z & -> & ?)|[(z & -> & ?)|(z & -> & ?)]]].
  - left. exists z. split; [reflexivity|lia].
  - right; left. exists z. split; [reflexivity|lia].
  - right; right; left. exists z. split; [reflexivity|lia].
  - right; right; right. exists z. split; [reflexivity|lia].
Qed.

Lemma NoDup_app_fresh {A} (l l' : list A) : NoDup l -> NoDup l' -> (forall x, In x l -> In x l' -> False) -> NoDup (l ++ l').
Proof.
  induction l as [|a l IH]; intros H H' D; [assumption|]. inversion H; subst. simpl. constructor.
  - intros I. apply in_app_or in I as [I|I]; [contradiction|]. apply (D a); [now left|assumption].
  - apply IH; auto. intros x Hx Hx'. apply (D x); [now right|assumption].
Qed.

Lemma junction_names jc nc isc p : names (spice_junction jc nc isc p) =
  [nm "i" jc; nm "d" (2 * jc - 1); nm "d" (2 * jc); nm "r" (2 * jc)].
Proof. reflexivity. Qed.

Lemma spice_junction_fresh jc nc isc p :
  NoDup (names (spice_junction (jc + 1) nc isc p)) /\
  (forall w, In w (names (spice_junction (jc + 1) nc isc p)) -> fresh_between jc (jc + 1) w) /\
  (forall w, In w (names (spice_junction (jc + 1) nc isc p)) -> forall z, w <> nm "r" (2 * z - 1)).
Proof.
  rewrite junction_names. split; [|split].
  - assert (D : forall c z c' z', (c, z) <> (c', z') -> nm c z <> nm c' z').
    { intros c z c' z' H E. apply H. apply nm_inj in E as [-> ->]. reflexivity. }
    repeat (apply NoDup_cons || apply NoDup_nil);
      repeat (rewrite not_in_cons; split; [apply D; intros X; injection X; intros; try discriminate; lia|]); intros [].
  - intros w [<-|[<-|[<-|[<-|[]]]]].
    + left. eexists. split; [reflexivity|lia].
    + right; left. eexists. split; [reflexivity|lia].
    + right; left. eexists. split; [reflexivity|lia].
    + right; right; left. eexists. split; [reflexivity|lia].
  - intros w [<-|[<-|[<-|[<-|[]]]]] z E; apply nm_inj in E as [E0 E]; try discriminate E0; lia.
Qed.

Lemma junction_loop_spec factor ps : forall jc nc,
  let '(ls, is, jc', nc') := junction_loop factor ps jc nc in
  jc' = (jc + Z.of_nat (length ps))%Z /\ nc' = (nc + length ps)%nat /\ is = map (fun p => p_isc p * factor) ps /\
  NoDup (names ls) /\ (forall w, In w (names ls) -> fresh_between jc jc' w) /\
  (forall w, In w (names ls) -> forall z, w <> nm "r" (2 * z - 1)).
Proof.
  induction ps as [|p ps IH]; intros jc nc; cbn [junction_loop].
  - repeat split; simpl; try lia; try constructor; intros ? [].
  - specialize (IH (jc + 1)%Z (nc + 1)%nat). destruct (junction_loop factor ps (jc + 1) (nc + 1)) as [[[ls is] jc'] nc'].
    destruct IH as (E1 & E2 & E3 & N & F & O).
    destruct (spice_junction_fresh jc nc (p_isc p * factor) p) as (N0 & F0 & O0).
    cbn [length]. rewrite names_app. repeat split.
    + lia.
    + lia.
    + simpl. now rewrite E3.
    + apply NoDup_app_fresh; auto. intros w Hw Hw'. apply (fresh_sep jc (jc + 1) jc' w w); auto. lia.
    + intros w Hw. apply in_app_or in Hw as [Hw|Hw].
      * apply (fresh_weaken jc (jc + 1)); auto; lia.
      * apply (fresh_weaken (jc + 1) jc'); auto; lia.
    + intros w Hw. apply in_app_or in Hw as [Hw|Hw]; auto.
Qed.

Lemma cell_names rs ps f jc nc ls is jc1 nc1 : junction_loop f ps jc nc = (ls, is, jc1, nc1) ->
  let cell := ls ++ [Element ("r"%char :: str_int (2 * jc1 - 1)) (nc1 + 1) nc1 (Resistor rs);
                     Element ("d"%char :: str_int (2 * jc1 + 1)) nc (nc1 + 1) (Diode (t "bypassdiode"))] in
  NoDup (names cell) /\ (forall w, In w (names cell) -> fresh_between jc (jc1 + 1) w).
Proof.
  intros E cell. pose proof (junction_loop_spec f ps jc nc) as H. rewrite E in H.
  destruct H as (E1 & E2 & E3 & N & F & O). unfold cell. rewrite names_app.
  set (a := nm "r" (2 * jc1 - 1)). set (b := nm "d" (2 * jc1 + 1)).
  change (names [_; _]) with [a; b]. split.
  - apply NoDup_app_fresh; auto.
    + repeat constructor; simpl; auto. intros [X|[]]. discriminate X.
    + intros w Hw [<-|[<-|[]]].
      * exact (O _ Hw jc1 eq_refl).
      * destruct (F _ Hw) as [(z & X & ?)|[(z & X & ?)|[(z & X & ?)|(z & X & ?)]]]; apply nm_inj in X as [X0 X]; try discriminate X0; lia.
  - intros w Hw. apply in_app_or in Hw as [Hw|[<-|[<-|[]]]].
    + apply (fresh_weaken jc jc1); auto; lia.
    + right; right; right. exists jc1. split; [reflexivity|lia].
    + right; left. exists (2 * jc1 + 1)%Z. split; [reflexivity|lia].
Qed.

Lemma cell_loop_names rs ps : forall factors jc nc,
  let '(ls, _, _) := cell_loop rs ps factors jc nc in
  NoDup (names ls) /\ exists hi, (jc <= hi)%Z /\ forall w, In w (names ls) -> fresh_between jc hi w.
Proof.
  induction factors as [|f factors IH]; intros jc nc; cbn [cell_loop].
  - split; [constructor|]. exists jc. split; [lia|]. intros ? [].
  - pose proof (junction_loop_spec f ps jc nc) as J.
    destruct (junction_loop f ps jc nc) as [[[ls is] jc1] nc1] eqn:E.
    destruct (cell_names rs ps f jc nc ls is jc1 nc1 E) as [N0 F0].
    specialize (IH (jc1 + 1)%Z (nc1 + 1)%nat). destruct (cell_loop rs ps factors (jc1 + 1) (nc1 + 1)) as [[ls' is'] nc3].
    destruct IH as [N (hi & H & F)]. destruct J as [-> _].
    match goal with |- context [ls ++ ?a :: ?b :: ls'] => change (ls ++ a :: b :: ls') with (ls ++ [a; b] ++ ls') end.
    rewrite app_assoc, names_app. split.
    + apply NoDup_app_fresh; auto. intros w Hw Hw'.
      refine (fresh_sep jc _ hi w w _ (F0 w Hw) (F w Hw') eq_refl). lia.
    + exists hi. split; [lia|]. intros w Hw. apply in_app_or in Hw as [Hw|Hw].
      * apply (fresh_weaken jc _ jc hi w ltac:(lia) H (F0 w Hw)).
      * refine (fresh_weaken _ hi jc hi w _ _ (F w Hw)); lia.
Qed.

(** * C63: the layout of a module *)

(** What is connected between two nodes, with the parameters of the diodes. *)
Inductive part := PSource (i : R) | PDiode (pars : option (R * R * R)) | PResistor (r : R) | PBias | PUnknown.
Definition edge := (nat * nat * part)%type.

Definition text_dec : forall a b : text, {a = b} + {a <> b} := list_eq_dec ascii_dec.
(** The diode model an element refers to, looked up among the model lines. *)
Definition resolve (ms : list (text * option (R * R * R))) (d : device) : part :=
  match d with
  | Source i => PSource i
  | Resistor r => PResistor r
  | Bias => PBias
  | Diode m => match find (fun p => if text_dec m (fst p) then true else false) ms with
               | Some p => PDiode (snd p)
               | None => PUnknown
               end
  end.
Definition edge_of (ms : list (text * option (R * R * R))) (e : text * nat * nat * device) : edge :=
  match e with (_, a, b, d) => (a, b, resolve ms d) end.

(** A junction between nodes [a] and [a + 1], a cell of junctions [ps] from node
    [base], and the string of cells, one per factor. *)
Definition junction_layout (a : nat) (factor : R) (p : jpar) : list edge :=
  [ (a, a + 1, PSource (p_isc p * factor));
    (a + 1, a, PDiode (Some (p_i01 p, p_n1 p, p_eg p)));
    (a + 1, a, PDiode (Some (p_i02 p, p_n2 p, p_eg p)));
    (a + 1, a, PResistor (p_rsh p)) ]%nat.
Definition cell_layout (rs : R) (ps : list jpar) (base : nat) (factor : R) : list edge :=
  flat_map (fun kp => junction_layout (base + fst kp) factor (snd kp)) (combine (seq 0 (length ps)) ps) ++
  [ (base + length ps + 1, base + length ps, PResistor rs); (base, base + length ps + 1, PDiode None) ]%nat.
Definition string_layout (rs : R) (ps : list jpar) (factors : list R) : list edge :=
  flat_map (fun mf => cell_layout rs ps (fst mf * (length ps + 1)) (snd mf)) (combine (seq 0 (length factors)) factors) ++
  [ (length factors * (length ps + 1), 0, PBias) ]%nat.

(** The model lines. *)
Definition mnm (z : Z) : text := t "diode" ++ str_int z.
Lemma mnm_inj z z' : mnm z = mnm z' -> z = z'.
Proof. unfold mnm. intros H. apply app_inv_head in H. now apply str_int_inj. Qed.
Lemma mnm_bypass z : mnm z <> t "bypassdiode".
Proof. discriminate. Qed.

Lemma find_model (ms : list (text * option (R * R * R))) m p : NoDup (map fst ms) -> In (m, p) ms ->
  find (fun q => if text_dec m (fst q) then true else false) ms = Some (m, p).
Proof.
  induction ms as [|[m' p'] ms IH]; intros N H; [destruct H|]. destruct H as [E|I]; inversion N; subst; simpl.
  - injection E as -> ->. destruct (text_dec m m); [reflexivity|contradiction].
  - destruct (text_dec m m') as [->|]; [|now apply IH].
    exfalso. apply H1. now apply (in_map fst) in I.
Qed.

(** Elements against edges when all models are found in [ms]. *)
Definition realises (ms : list (text * option (R * R * R))) (d : device) (p : part) : Prop :=
  match d, p with
  | Source i, PSource i' => i = i'
  | Resistor r, PResistor r' => r = r'
  | Bias, PBias => True
  | Diode m, PDiode q => In (m, q) ms
  | _, _ => False
  end.
Definition matches ms (e : text * nat * nat * device) (g : edge) : Prop :=
  match e, g with (_, a, b, d), (a', b', p) => a = a' /\ b = b' /\ realises ms d p end.
Lemma matches_edge ms es gs : NoDup (map fst ms) -> Forall2 (matches ms) es gs -> map (edge_of ms) es = gs.
Proof.
  intros N F. induction F as [|[[[n a] b] d] [[a' b'] p] es gs (-> & -> & H) F IH]; [reflexivity|].
  simpl. rewrite IH. f_equal. f_equal. destruct d; destruct p; simpl in *; try contradiction; subst; auto.
  rewrite (find_model ms model pars N H). reflexivity.
Qed.

Lemma junction_loop_layout ms factor ps : forall jc nc,
  let '(ls, is, jc', nc') := junction_loop factor ps jc nc in
  incl (models ls) ms ->
  Forall2 (matches ms) (elements ls)
    (flat_map (fun kp => junction_layout (nc + fst kp) factor (snd kp)) (combine (seq 0 (length ps)) ps)).
Proof.
  induction ps as [|p ps IH]; intros jc nc; cbn [junction_loop].
  - constructor.
  - specialize (IH (jc + 1)%Z (nc + 1)%nat). destruct (junction_loop factor ps (jc + 1) (nc + 1)) as [[[ls is] jc'] nc'].
    intros H. cbn [length seq combine flat_map fst snd]. rewrite elements_app. rewrite models_app in H.
    apply Forall2_app.
    + assert (H0 : incl (models (spice_junction (jc + 1) nc (p_isc p * factor) p)) ms) by (intros x Hx; apply H, in_or_app; now left).
      unfold junction_layout. rewrite Nat.add_0_r.
      repeat (constructor; [split; [reflexivity|split; [reflexivity|]]|]); try constructor; simpl realises; try reflexivity.
      * apply H0. now left.
      * apply H0. right; now left.
    + specialize (IH (fun x Hx => H x (in_or_app _ _ x (or_intror Hx)))).
      rewrite <- seq_shift. clear -IH.
      set (n := length ps) in *. assert (G : forall l : list jpar, forall k,
        flat_map (fun kp => junction_layout (nc + fst kp) factor (snd kp)) (combine (map S k) l) =
        flat_map (fun kp => junction_layout (nc + 1 + fst kp) factor (snd kp)) (combine k l)).
      { intros l k. revert l. induction k as [|x k IHk]; intros [|y l]; simpl; try reflexivity.
        rewrite IHk. now replace (nc + S x)%nat with (nc + 1 + x)%nat by lia. }
      rewrite G. exact IH.
Qed.

Lemma cell_loop_layout ms rs ps : In (t "bypassdiode", None) ms -> forall factors jc nc s,
  let '(ls, is, nc') := cell_loop rs ps factors jc nc in
  nc = (s * (length ps + 1))%nat -> incl (models ls) ms ->
  Forall2 (matches ms) (elements ls)
    (flat_map (fun mf => cell_layout rs ps (fst mf * (length ps + 1)) (snd mf)) (combine (seq s (length factors)) factors)) /\
  nc' = ((s + length factors) * (length ps + 1))%nat /\
  is = map (fun f => map (fun p => p_isc p * f) ps) factors.
Proof.
  intros HB. induction factors as [|f factors IH]; intros jc nc s; cbn [cell_loop].
  - intros -> _. split; [constructor|]. split; [simpl; lia|reflexivity].
  - pose proof (junction_loop_spec f ps jc nc) as J. pose proof (junction_loop_layout ms f ps jc nc) as L.
    destruct (junction_loop f ps jc nc) as [[[ls is] jc1] nc1].
    specialize (IH (jc1 + 1)%Z (nc1 + 1)%nat (S s)). destruct (cell_loop rs ps factors (jc1 + 1) (nc1 + 1)) as [[ls' is'] nc3].
    intros E H. destruct J as (_ & E2 & E3 & _).
    rewrite models_app in H. cbn [models flat_map app] in H.
    destruct IH as (F & E4 & E5).
    { rewrite E2, E. lia. }
    { intros x Hx. apply H, in_or_app. now right. }
    specialize (L (fun x Hx => H x (in_or_app _ _ x (or_introl Hx)))).
    split; [|split].
    + rewrite elements_app. cbn [length seq combine flat_map fst snd]. unfold cell_layout at 1. rewrite <- app_assoc.
      rewrite <- E. apply Forall2_app; [exact L|]. rewrite E2.
      cbn [elements flat_map app]. constructor; [repeat split|].
      constructor; [|exact F]. repeat split. exact HB.
    + rewrite E4. cbn [length]. lia.
    + rewrite E3, E5. reflexivity.
Qed.

Lemma junction_loop_models factor ps : forall jc nc,
  let '(ls, is, jc', nc') := junction_loop factor ps jc nc in
  NoDup (map fst (models ls)) /\ forall m, In m (map fst (models ls)) -> exists z, m = mnm z /\ (2 * jc < z <= 2 * jc')%Z.
Proof.
  induction ps as [|p ps IH]; intros jc nc; cbn [junction_loop].
  - split; [constructor|]. intros ? [].
  - pose proof (junction_loop_spec factor ps (jc + 1) (nc + 1)) as J.
    specialize (IH (jc + 1)%Z (nc + 1)%nat). destruct (junction_loop factor ps (jc + 1) (nc + 1)) as [[[ls is] jc'] nc'].
    destruct J as [J _]. destruct IH as [N F]. rewrite models_app, map_app.
    change (map fst (models (spice_junction (jc + 1) nc (p_isc p * factor) p))) with [mnm (2 * (jc + 1) - 1); mnm (2 * (jc + 1))].
    split.
    + apply NoDup_app_fresh; auto.
      * constructor; [|constructor; [intros []|constructor]]. intros [X|[]]. apply mnm_inj in X. lia.
      * intros m [<-|[<-|[]]] I; apply F in I as (z & X & ?); apply mnm_inj in X; lia.
    + intros m I. apply in_app_or in I as [[<-|[<-|[]]]|I].
      * eexists. split; [reflexivity|lia].
      * eexists. split; [reflexivity|lia].
      * apply F in I as (z & -> & ?). exists z. split; [reflexivity|lia].
Qed.
Lemma cell_loop_models rs ps : forall factors jc nc,
  let '(ls, is, nc') := cell_loop rs ps factors jc nc in
  NoDup (map fst (models ls)) /\ forall m, In m (map fst (models ls)) -> exists z, m = mnm z /\ (2 * jc < z)%Z.
Proof.
  induction factors as [|f factors IH]; intros jc nc; cbn [cell_loop].
  - split; [constructor|]. intros ? [].
  - pose proof (junction_loop_spec f ps jc nc) as J. pose proof (junction_loop_models f ps jc nc) as M.
    destruct (junction_loop f ps jc nc) as [[[ls is] jc1] nc1].
    specialize (IH (jc1 + 1)%Z (nc1 + 1)%nat). destruct (cell_loop rs ps factors (jc1 + 1) (nc1 + 1)) as [[ls' is'] nc3].
    destruct J as [J _]. destruct M as [N F]. destruct IH as [N' F'].
    rewrite models_app, map_app. cbn [models flat_map app]. split.
    + apply NoDup_app_fresh; auto. intros m I I'. apply F in I as (z & -> & ?). apply F' in I' as (z' & X & ?).
      apply mnm_inj in X. lia.
    + intros m I. apply in_app_or in I as [I|I].
      * apply F in I as (z & -> & ?). exists z. split; [reflexivity|lia].
      * apply F' in I as (z & -> & ?). exists z. split; [reflexivity|lia].
Qed.

(** The parameters a junction contributes. *)
Definition default (o : option R) (d : R) : R := match o with Some x => x | None => d end.
Definition pars_of (area : R) (j : junc) (p : jpar) : Prop :=
  exists jsc j01 j02 eg, a_jsc j = Some jsc /\ a_j01 j = Some j01 /\ a_j02 j = Some j02 /\ a_eg j = Some eg /\
  p_isc p = jsc * area /\ p_i01 p = j01 * area /\ p_i02 p = j02 * area /\ p_eg p = eg /\
  p_n1 p = default (a_n1 j) 1 /\ p_n2 p = default (a_n2 j) 2 /\
  p_rsh p = match a_rshunt j with Some r => Rmin (r / area) (10 ^ 14) | None => 10 ^ 14 end.
Definition complete (j : junc) : Prop :=
  a_jsc j <> None /\ a_j01 j <> None /\ a_j02 j <> None /\ a_eg j <> None.

Lemma junction_pars_spec area j :
  match junction_pars area j with
  | Ok p => pars_of area j p
  | Err e => e = AttributeError /\ ~ complete j
  end.
Proof.
  unfold junction_pars, attr, complete. destruct j as [[jsc|] [j01|] n1 [j02|] n2 [eg|] rsh]; simpl;
    try (split; [reflexivity|]; tauto).
  exists jsc, j01, j02, eg. simpl. unfold default, attr_or. intuition.
Qed.
Lemma all_pars_spec area l :
  match all_pars area l with
  | Ok ps => Forall2 (pars_of area) l ps
  | Err e => e = AttributeError /\ ~ Forall complete l
  end.
Proof.
  induction l as [|j l IH]; simpl; [constructor|]. pose proof (junction_pars_spec area j) as J.
  destruct (junction_pars area j) as [p|e]; simpl.
  - destruct (all_pars area l) as [ps|e]; simpl; [now constructor|]. destruct IH as [-> IH]. split; [reflexivity|].
    intros F. inversion F; auto.
  - destruct J as [-> J]. split; [reflexivity|]. intros F. inversion F; auto.
Qed.

(** C63.  Whenever the netlist of a module is written, all its element names and all
    its model names are distinct, and with every diode resolved to its model the
    elements are exactly those of the layout: junction k of cell m between nodes
    m (J + 1) + k and the next one, the series resistance above the last junction, the
    bypass diode from the lower end of the cell to its upper end, and the bias source
    between the last node and ground.  The parameters are those of the junctions.  The
    netlist is refused only if a junction lacks an attribute, the shading has another
    number of entries than there are cells, or there is no cell. *)
Theorem C63_netlist area rser temp juncs draws shading sigma v0 v1 dv :
  let a := default area 1 in
  let N := length draws in
  match solve_pv_module area rser temp juncs draws shading sigma v0 v1 dv with
  | Ok (ls, iscs) =>
      exists ps factors,
        Forall2 (pars_of a) juncs ps /\ length factors = N /\
        NoDup (names ls) /\ NoDup (map fst (models ls)) /\
        map (edge_of (models ls)) (elements ls) = string_layout (Rmax (rser / a) (/ 10 ^ 14)) ps factors /\
        iscs = map (fun f => map (fun p => p_isc p * f) ps) factors
  | Err AttributeError => ~ Forall complete juncs
  | Err AssertionError => exists s, shading = Some s /\ length s <> N
  | Err ValueError => N = O
  | Err _ => False
  end.
Proof.
  intros a N. unfold solve_pv_module. change (attr_or area 1) with a. set (rs := Rmax (rser / a) (/ 10 ^ 14)). clearbody rs.
  pose proof (all_pars_spec a juncs) as HP. destruct (all_pars a juncs) as [ps|e]; cbn [bindR]; [|destruct HP as [-> HP]; exact HP].
  assert (HS : match (match shading with
                | Some s => if Nat.eqb (length s) (length draws) then Ok s else Err AssertionError
                | None => Ok (repeat 0 (length draws)) end) with
               | Ok s => length s = N
               | Err e => e = AssertionError /\ exists s, shading = Some s /\ length s <> N end).
  { destruct shading as [s|]; [|apply repeat_length]. destruct (Nat.eqb_spec (length s) (length draws)); [assumption|].
    split; [reflexivity|]. now exists s. }
  destruct (match shading with Some s => _ | None => _ end) as [shade|e]; [|destruct HS as [-> HS]; exact HS]. cbn [bindR].
  unfold dispersion.
  destruct draws as [|z draws]; [reflexivity|].
  destruct (np_max (map (fun z => sigma * z) (z :: draws))) as [mx|e] eqn:E; [|discriminate E]. cbn [bindR].
  match goal with |- context [cell_loop _ ps ?f 0 0] => set (factors := f) end.
  assert (HF : length factors = N) by (unfold factors; rewrite map_length, combine_length, map_length, HS; unfold N; lia).
  clearbody factors. clear E.
  pose proof (cell_loop_names rs ps factors 0 0) as HN.
  pose proof (cell_loop_models rs ps factors 0 0) as HM.
  destruct (cell_loop rs ps factors 0 0) as [[ls is] last] eqn:E.
  set (ms := (t "bypassdiode", None) :: models ls).
  pose proof (cell_loop_layout ms rs ps (or_introl eq_refl) factors 0 0 0) as HL. rewrite E in HL.
  destruct (HL ltac:(lia) (fun x Hx => or_intror Hx)) as (F & EL & EI). clear HL.
  destruct HN as [HN (hi & _ & HF')]. destruct HM as [HM HM'].
  set (tail := [Options (temp - 273); Element (t "vbias") last 0 Bias; Sweep v0 v1 dv]).
  assert (EM : models (ModelLine (t "bypassdiode") None :: ls ++ tail) = ms).
  { change (ModelLine (t "bypassdiode") None :: ls ++ tail) with ([ModelLine (t "bypassdiode") None] ++ ls ++ tail).
    rewrite !models_app. simpl. now rewrite app_nil_r. }
  assert (EE : elements (ModelLine (t "bypassdiode") None :: ls ++ tail) = elements ls ++ [(t "vbias", last, 0%nat, Bias)]).
  { change (ModelLine (t "bypassdiode") None :: ls ++ tail) with ([ModelLine (t "bypassdiode") None] ++ ls ++ tail).
    rewrite !elements_app. reflexivity. }
  assert (NM : NoDup (map fst ms)).
  { unfold ms. simpl. constructor; [|exact HM]. intros I. apply HM' in I as (zz & X & _). symmetry in X. now apply mnm_bypass in X. }
  exists ps, factors. split; [exact HP|]. split; [exact HF|]. split; [|split; [|split]].
  - unfold names. rewrite EE, map_app. apply NoDup_app_fresh; [exact HN|constructor; [intros []|constructor]|].
    intros w I [<-|[]]. destruct (HF' _ I) as [(zz & X & _)|[(zz & X & _)|[(zz & X & _)|(zz & X & _)]]]; discriminate X.
  - rewrite EM. exact NM.
  - rewrite EM, EE. apply matches_edge; [exact NM|]. unfold string_layout. apply Forall2_app; [exact F|].
    constructor; [|constructor]. split; [rewrite EL; simpl; lia|]. split; [reflexivity|exact I].
  - exact EI.
Qed.

(** A two-junction cell, two cells, the second one half shaded. *)
Definition ex_junc : junc := mkJunc (Some 100) (Some 1) None (Some 2) None (Some 1) None.
Example C63_netlist_example :
  match solve_pv_module None 1 300 [ex_junc; ex_junc] [0; 0] (Some [0; 1/2]) 1 0 5 1 with
  | Ok (ls, _) => length (elements ls) = 21%nat /\ In (t "d5", 0, 3, Diode (t "bypassdiode"))%nat (elements ls) /\
                  In (t "d11", 3, 6, Diode (t "bypassdiode"))%nat (elements ls) /\ In (t "vbias", 6, 0, Bias)%nat (elements ls)
  | Err _ => False
  end.
Proof.
  unfold solve_pv_module. simpl. split; [reflexivity|]. split; [|split]; repeat (first [left; reflexivity | right]).
Qed.

(** * C101: the cells of a module are in series *)

(** The current through a part, from its first to its second node, when [w] is the
    voltage across it; [law] is the characteristic of the diodes and [ib] the current
    through the bias source. *)
Definition current (law : option (R * R * R) -> R -> R) (ib w : R) (p : part) : R :=
  match p with
  | PSource i => i
  | PDiode q => law q w
  | PResistor r => w / r
  | PBias => ib
  | PUnknown => 0
  end.
(** The current leaving node [k], and Kirchhoff's law at every node but ground. *)
Definition ind (b : bool) : R := if b then 1 else 0.
Definition edge_current law ib (v : nat -> R) (e : edge) : R :=
  match e with (a, b, p) => current law ib (v a - v b) p end.
Definition outflow law ib v (es : list edge) (k : nat) : R :=
  fold_right (fun e acc => edge_current law ib v e * (ind (fst (fst e) =? k)%nat - ind (snd (fst e) =? k)%nat) + acc) 0 es.
Definition solves law ib v (es : list edge) : Prop := forall k, (0 < k)%nat -> outflow law ib v es k = 0.

(** The current out of all nodes above [k]. *)
Definition cut law ib v (es : list edge) (k : nat) : R :=
  fold_right (fun e acc => edge_current law ib v e * (ind (k <? fst (fst e))%nat - ind (k <? snd (fst e))%nat) + acc) 0 es.

Lemma ind_step a k : ind (k <? a)%nat = ind (a =? S k)%nat + ind (S k <? a)%nat.
Proof.
  unfold ind. destruct (Nat.ltb_spec k a); destruct (Nat.eqb_spec a (S k)); destruct (Nat.ltb_spec (S k) a); try lia; lra.
Qed.
Lemma cut_step law ib v es k : cut law ib v es k = outflow law ib v es (S k) + cut law ib v es (S k).
Proof.
  induction es as [|e es IH]; cbn [cut outflow fold_right]; [lra|]. unfold cut, outflow in IH. rewrite IH.
  rewrite (ind_step (fst (fst e)) k), (ind_step (snd (fst e)) k). lra.
Qed.
Lemma cut_above law ib v es k : (forall e, In e es -> (fst (fst e) <= k /\ snd (fst e) <= k)%nat) -> cut law ib v es k = 0.
Proof.
  induction es as [|e es IH]; intros H; cbn [cut fold_right]; [reflexivity|]. unfold cut in IH. rewrite IH by (intros; apply H; now right).
  destruct (H e (or_introl eq_refl)). unfold ind.
  destruct (Nat.ltb_spec k (fst (fst e))); destruct (Nat.ltb_spec k (snd (fst e))); try lia; lra.
Qed.
Lemma cut_below law ib v es k : (forall e, In e es -> (k < fst (fst e) /\ k < snd (fst e))%nat) -> cut law ib v es k = 0.
Proof.
  induction es as [|e es IH]; intros H; cbn [cut fold_right]; [reflexivity|]. unfold cut in IH. rewrite IH by (intros; apply H; now right).
  destruct (H e (or_introl eq_refl)). unfold ind.
  destruct (Nat.ltb_spec k (fst (fst e))); destruct (Nat.ltb_spec k (snd (fst e))); try lia; lra.
Qed.
Lemma cut_app law ib v a b k : cut law ib v (a ++ b) k = cut law ib v a k + cut law ib v b k.
Proof. induction a as [|e a IH]; cbn [cut fold_right app]; unfold cut in *; simpl; [lra|]. rewrite IH. lra. Qed.
Lemma bounded_nodes (es : list edge) : exists m, forall e, In e es -> (fst (fst e) <= m /\ snd (fst e) <= m)%nat.
Proof.
  induction es as [|e es [m IH]]; [exists 0%nat; intros ? []|].
  exists (Nat.max m (Nat.max (fst (fst e)) (snd (fst e)))). intros e' [<-|I]; [lia|]. destruct (IH e' I). lia.
Qed.
(** In a solution nothing flows through any cut. *)
Lemma solves_cut law ib v es k : solves law ib v es -> cut law ib v es k = 0.
Proof.
  intros S. destruct (bounded_nodes es) as [m B].
  assert (G : forall n k, (m <= n + k)%nat -> cut law ib v es k = 0).
  { induction n as [|n IH]; intros k' H.
    - apply cut_above. intros e I. destruct (B e I). lia.
    - rewrite cut_step, (S (Datatypes.S k')) by lia. rewrite IH by lia. lra. }
  apply (G m). lia.
Qed.

(** Where the edges of junctions and cells are. *)
Lemma combine_seq_In {A} (l : list A) : forall s k (p : A), In (k, p) (combine (seq s (length l)) l) -> (s <= k < s + length l)%nat.
Proof.
  induction l as [|x l IH]; intros s k p H; simpl in H; [destruct H|]. destruct H as [E|H]; simpl.
  - injection E as -> _. lia.
  - apply IH in H. lia.
Qed.
Lemma junctions_bounds base f (l : list (nat * jpar)) lo hi : (forall k p, In (k, p) l -> (lo <= k < hi)%nat) ->
  forall e, In e (flat_map (fun kp => junction_layout (base + fst kp) f (snd kp)) l) ->
  (base + lo <= fst (fst e) <= base + hi /\ base + lo <= snd (fst e) <= base + hi)%nat.
Proof.
  intros H e I. apply in_flat_map in I as ([k p] & I & J). apply H in I. simpl in J.
  destruct J as [<-|[<-|[<-|[<-|[]]]]]; simpl; lia.
Qed.
Lemma cell_bounds rs ps base f e : In e (cell_layout rs ps base f) ->
  (base <= fst (fst e) <= base + length ps + 1 /\ base <= snd (fst e) <= base + length ps + 1)%nat.
Proof.
  unfold cell_layout. intros I. apply in_app_or in I as [I|[<-|[<-|[]]]]; simpl; [|lia|lia].
  apply (junctions_bounds base f _ 0 (length ps)) in I; [lia|].
  intros k p Hk. apply combine_seq_In in Hk. lia.
Qed.

(** The current down through a junction at voltage [w]. *)
Definition junction_current (law : option (R * R * R) -> R -> R) (p : jpar) (f w : R) : R :=
  law (Some (p_i01 p, p_n1 p, p_eg p)) w + law (Some (p_i02 p, p_n2 p, p_eg p)) w + w / p_rsh p - p_isc p * f.

Lemma cut_junction law ib v a f p :
  cut law ib v (junction_layout a f p) a = junction_current law p f (v (a + 1)%nat - v a).
Proof.
  unfold junction_layout, cut, junction_current. cbn [fold_right fst snd edge_current current]. unfold ind.
  destruct (Nat.ltb_spec a a); [lia|]. destruct (Nat.ltb_spec a (a + 1)); [|lia]. lra.
Qed.
Lemma cut_junctions law ib v base f : forall ps s k p, nth_error ps k = Some p ->
  cut law ib v (flat_map (fun kp => junction_layout (base + fst kp) f (snd kp)) (combine (seq s (length ps)) ps)) (base + (s + k))
  = junction_current law p f (v (base + (s + k) + 1)%nat - v (base + (s + k))%nat).
Proof.
  induction ps as [|q ps IH]; intros s k p H; [destruct k; discriminate H|].
  cbn [length seq combine flat_map fst snd]. rewrite cut_app. destruct k as [|k].
  - injection H as ->. rewrite Nat.add_0_r, cut_junction.
    rewrite cut_below; [lra|]. intros e I.
    apply (junctions_bounds base f _ (S s) (S s + length ps)) in I; [lia|].
    intros k' p' Hk. apply combine_seq_In in Hk. lia.
  - rewrite cut_above. 2:{ intros e I. simpl in I. destruct I as [<-|[<-|[<-|[<-|[]]]]]; simpl; lia. }
    simpl in H. specialize (IH (S s) k p H). replace (s + S k)%nat with (S s + k)%nat by lia. rewrite IH. lra.
Qed.
Lemma cut_cell law ib v rs ps base f k : (k < length ps)%nat \/ k = length ps ->
  cut law ib v (cell_layout rs ps base f) (base + k) =
  match nth_error ps k with
  | Some p => junction_current law p f (v (base + k + 1)%nat - v (base + k)%nat)
  | None => (v (base + length ps + 1)%nat - v (base + length ps)%nat) / rs
  end - law None (v base - v (base + length ps + 1)%nat).
Proof.
  intros H. unfold cell_layout. rewrite cut_app. destruct (nth_error ps k) as [p|] eqn:E.
  - pose proof (cut_junctions law ib v base f ps 0 k p E) as C. simpl in C. rewrite C.
    assert (k < length ps)%nat by (apply nth_error_Some; congruence).
    unfold cut. cbn [fold_right fst snd edge_current current]. unfold ind.
    destruct (Nat.ltb_spec (base + k) (base + length ps + 1)); [|lia].
    destruct (Nat.ltb_spec (base + k) (base + length ps)); [|lia].
    destruct (Nat.ltb_spec (base + k) base); [lia|]. lra.
  - apply nth_error_None in E. assert (k = length ps) by lia. subst k.
    rewrite cut_above.
    2:{ intros e I. apply (junctions_bounds base f _ 0 (length ps)) in I; [lia|]. intros k' p' Hk. apply combine_seq_In in Hk. lia. }
    unfold cut. cbn [fold_right fst snd edge_current current]. unfold ind.
    destruct (Nat.ltb_spec (base + length ps) (base + length ps + 1)); [|lia].
    destruct (Nat.ltb_spec (base + length ps) (base + length ps)); [lia|].
    destruct (Nat.ltb_spec (base + length ps) base); [lia|]. lra.
Qed.
Lemma cut_string law ib v rs ps : forall factors s m f k, nth_error factors m = Some f -> (k <= length ps)%nat ->
  cut law ib v (flat_map (fun mf => cell_layout rs ps (fst mf * (length ps + 1)) (snd mf)) (combine (seq s (length factors)) factors))
    ((s + m) * (length ps + 1) + k)
  = cut law ib v (cell_layout rs ps ((s + m) * (length ps + 1)) f) ((s + m) * (length ps + 1) + k).
Proof.
  induction factors as [|f0 factors IH]; intros s m f k H K; [destruct m; discriminate H|].
  cbn [length seq combine flat_map fst snd]. rewrite cut_app. destruct m as [|m].
  - injection H as ->. rewrite Nat.add_0_r.
    rewrite (cut_below law ib v (flat_map _ _)); [lra|]. intros e I. apply in_flat_map in I as ([m' f'] & I & J).
    apply combine_seq_In in I. apply cell_bounds in J. simpl in J. nia.
  - rewrite (cut_above law ib v (cell_layout _ _ _ _)). 2:{ intros e I. apply cell_bounds in I. nia. }
    simpl in H. specialize (IH (S s) m f k H K). replace (s + S m)%nat with (S s + m)%nat by lia. rewrite IH. lra.
Qed.

Lemma Forall2_len {A B} (P : A -> B -> Prop) l l' : Forall2 P l l' -> length l = length l'.
Proof. induction 1; simpl; congruence. Qed.

(** C101.  In every solution of Kirchhoff's laws for the netlist of a module, with any
    diode characteristic, all cells carry the same current: the current delivered to
    the bias source plus the current down the cell is what its bypass diode passes
    upwards, the junctions of a cell and its series resistance all carry the current of
    the cell, and the bias is the sum of the voltages of the cells. *)
Theorem C101_series area rser temp juncs draws shading sigma v0 v1 dv ls iscs law ib v :
  solve_pv_module area rser temp juncs draws shading sigma v0 v1 dv = Ok (ls, iscs) ->
  solves law ib v (map (edge_of (models ls)) (elements ls)) ->
  let a := default area 1 in
  let J := length juncs in
  let N := length draws in
  exists ps factors, Forall2 (pars_of a) juncs ps /\ length factors = N /\
  (forall m f, nth_error factors m = Some f ->
     let lower := (m * (J + 1))%nat in
     let upper := (lower + J + 1)%nat in
     let icell := law None (v lower - v upper) - ib in
     (forall k p, nth_error ps k = Some p ->
        junction_current law p f (v (lower + k + 1)%nat - v (lower + k)%nat) = icell) /\
     (v upper - v (lower + J)%nat) / Rmax (rser / a) (/ 10 ^ 14) = icell) /\
  v (N * (J + 1))%nat - v 0%nat = fold_right Rplus 0 (map (fun m => v (m * (J + 1) + J + 1)%nat - v (m * (J + 1))%nat) (seq 0 N)).
Proof.
  intros E S a J N. pose proof (C63_netlist area rser temp juncs draws shading sigma v0 v1 dv) as H.
  cbv zeta in H. rewrite E in H. destruct H as (ps & factors & HP & HF & _ & _ & HL & _).
  exists ps, factors. split; [exact HP|]. split; [exact HF|].
  assert (HJ : length ps = J) by (symmetry; exact (Forall2_len _ _ _ HP)).
  rewrite HL in S. change (default area 1) with a in S. set (rs := Rmax (rser / a) (/ 10 ^ 14)) in *. split.
  - intros m f Hm lower upper icell.
    assert (M : (m < length factors)%nat) by (apply nth_error_Some; congruence).
    assert (C : forall k, (k <= J)%nat ->
      match nth_error ps k with
      | Some p => junction_current law p f (v (lower + k + 1)%nat - v (lower + k)%nat)
      | None => (v upper - v (lower + J)%nat) / rs
      end = icell).
    { intros k K. pose proof (solves_cut law ib v _ (lower + k) S) as Z. unfold string_layout in Z.
      rewrite cut_app in Z. unfold lower in Z. rewrite <- HJ in Z.
      pose proof (cut_string law ib v rs ps factors 0 m f k Hm ltac:(lia)) as Q. simpl plus in Q. rewrite Q in Z.
      rewrite cut_cell in Z by lia. rewrite HJ in Z. fold lower in Z. fold upper in Z.
      unfold cut at 1 in Z. cbn [fold_right fst snd edge_current current] in Z.
      replace (ind (lower + k <? length factors * (J + 1))%nat) with 1 in Z.
      2:{ unfold ind. destruct (Nat.ltb_spec (lower + k) (length factors * (J + 1))); [reflexivity|]. unfold lower in *. nia. }
      replace (ind (lower + k <? 0)%nat) with 0 in Z by (unfold ind; destruct (Nat.ltb_spec (lower + k) 0); [lia|reflexivity]).
      unfold icell. lra. }
    split.
    + intros k p Hk. assert (k < length ps)%nat by (apply nth_error_Some; congruence).
      specialize (C k ltac:(lia)). rewrite Hk in C. exact C.
    + specialize (C J (le_n _)). rewrite (proj2 (nth_error_None ps J)) in C by lia. exact C.
  - clear. assert (G : forall n s, v ((s + n) * (J + 1))%nat - v (s * (J + 1))%nat =
      fold_right Rplus 0 (map (fun m => v (m * (J + 1) + J + 1)%nat - v (m * (J + 1))%nat) (seq s n))).
    { induction n as [|n IH]; intros s; simpl; [rewrite Nat.add_0_r; lra|].
      rewrite <- IH. replace (s + S n)%nat with (S s + n)%nat by lia.
      replace (S s * (J + 1))%nat with (s * (J + 1) + J + 1)%nat by lia. lra. }
    apply (G N 0%nat).
Qed.

(** One cell with one junction and linear "diodes" of 1 S: at 1 A photocurrent and
    short circuit the current splits over the junction and its series resistance. *)
Example C101_series_example :
  let ju := mkJunc (Some 1) (Some 1) None (Some 1) None (Some 1) (Some 1) in
  let law := fun (q : option (R * R * R)) w => match q with None => 0 | Some _ => w end in
  let v := fun n => match n with 1%nat => 1/4 | _ => 0 end in
  match solve_pv_module None 1 300 [ju] [0] None 1 0 1 1 with
  | Ok (ls, _) => solves law (1/4) v (map (edge_of (models ls)) (elements ls))
  | Err _ => False
  end.
Proof.
  unfold solve_pv_module. cbn [all_pars junction_pars attr a_jsc a_j01 a_j02 a_eg a_rshunt a_n1 a_n2 attr_or bindR
    length repeat dispersion map np_max combine fst snd].
  replace (Rmin (1 / 1) (10 ^ 14)) with 1 by (rewrite Rmin_left; [lra|]; simpl; lra).
  replace (Rmax (1 / 1) (/ 10 ^ 14)) with 1.
  2:{ rewrite Rmax_left; [lra|]. replace (1 / 1) with (/ 1) by lra. apply Rinv_le_contravar; simpl; lra. }
  replace (Rabs _) with 1.
  2:{ simpl. rewrite Rabs_right; lra. }
  intros k K. destruct k as [|[|[|k]]]; [lia| | |]; unfold outflow, ind, edge_current; simpl; lra.
Qed.

(** * C102: dispersion of the photocurrents *)

(** C102 (partial).  With the largest draw zmax, the photocurrent factor of a cell is
    |1 - sigma^2 (zmax - z)| (1 - shade): the strongest cell carries its full (shaded)
    photocurrent, and no factor leaves [0, 1] as long as sigma^2 (zmax - z) <= 2.
    Missing: the documented width sigma of the distribution (it is sigma^2) and the
    bound for wide distributions. *)
Theorem C102_dispersion_partial sigma draws shade fs zmax :
  0 <= sigma -> length shade = length draws -> In zmax draws -> (forall z, In z draws -> z <= zmax) ->
  dispersion sigma draws shade = Ok fs ->
  length fs = length draws /\
  forall i, (i < length draws)%nat ->
    let z := nth i draws 0 in let s := nth i shade 0 in
    nth i fs 0 = Rabs (1 - sigma * sigma * (zmax - z)) * (1 - s) /\
    (z = zmax -> nth i fs 0 = 1 - s) /\
    (0 <= s <= 1 -> sigma * sigma * (zmax - z) <= 2 -> 0 <= nth i fs 0 <= 1 - s).
Proof.
  intros Hs Hl Hin Hmax. unfold dispersion. set (rnd := map (fun z => sigma * z) draws).
  destruct (np_max rnd) as [m|] eqn:E; cbn [bindR]; intros H; [|discriminate H]. injection H as <-.
  assert (L : length rnd = length draws) by apply map_length.
  apply np_max_spec in E as [I U].
  assert (M : m = sigma * zmax).
  { apply Rle_antisym.
    - unfold rnd in I. apply in_map_iff in I as (z & <- & Hz). apply Rmult_le_compat_l; auto.
    - apply U. unfold rnd. now apply (in_map (fun z => sigma * z)). }
  split; [rewrite map_length, combine_length; lia|]. intros i Hi. set (z := nth i draws 0). set (s := nth i shade 0).
  set (g := fun p : R * R => Rabs (1 - m * sigma + sigma * fst p) * (1 - snd p)).
  assert (N : nth i (map g (combine rnd shade)) 0 = Rabs (1 - sigma * sigma * (zmax - z)) * (1 - s)).
  { rewrite (nth_indep _ 0 (g (0, 0))) by (rewrite map_length, combine_length; lia).
    rewrite map_nth, combine_nth by lia. unfold g. simpl. f_equal. f_equal. rewrite M.
    unfold rnd. rewrite (nth_indep _ 0 (sigma * 0)) by (rewrite map_length; lia).
    rewrite (map_nth (fun z => sigma * z)). fold z. ring. }
  rewrite N. split; [reflexivity|]. split.
  - intros ->. replace (1 - sigma * sigma * (zmax - zmax)) with 1 by ring. rewrite Rabs_R1. lra.
  - intros H1 H2. assert (z <= zmax) by (apply Hmax, nth_In; lia).
    assert (0 <= sigma * sigma * (zmax - z)) by (apply Rmult_le_pos; nra).
    assert (0 <= Rabs (1 - sigma * sigma * (zmax - z)) <= 1) by (split; [apply Rabs_pos|apply Rabs_le; lra]).
    nra.
Qed.
Example C102_dispersion_example :
  exists fs, dispersion (1/2) [0; -1] [0; 1/2] = Ok fs /\ nth 1 fs 0 = 3/8.
Proof.
  assert (E : np_max (map (fun z => 1/2 * z) [0; -1]) = Ok (1/2 * 0)).
  { simpl. f_equal. rewrite Rmax_left; lra. }
  unfold dispersion. rewrite E. cbn [bindR]. eexists. split; [reflexivity|]. simpl.
  rewrite Rabs_right; lra.
Qed.

(** The photocurrent of a cell can exceed its ideal value (sigma = 2), and a draw one
    standard deviation below the best cell lowers it by sigma^2, not by the documented
    sigma. *)
Theorem C102_exceeds_refuted : exists sigma draws shade fs,
  0 < sigma /\ shade = [0; 0] /\ dispersion sigma draws shade = Ok fs /\ 1 < nth 1 fs 0.
Proof.
  exists 2, [0; -1], [0; 0].
  assert (E : np_max (map (fun z => 2 * z) [0; -1]) = Ok (2 * 0)).
  { simpl. f_equal. rewrite Rmax_left; lra. }
  unfold dispersion. rewrite E. cbn [bindR]. eexists. split; [lra|]. split; [reflexivity|]. split; [reflexivity|]. simpl.
  rewrite Rabs_left; lra.
Qed.
Theorem C102_width_refuted : exists sigma fs, 0 < sigma < 1 /\
  dispersion sigma [0; -1] [0; 0] = Ok fs /\ nth 0 fs 0 = 1 /\ nth 1 fs 0 = 1 - sigma * sigma /\ nth 1 fs 0 <> 1 - sigma.
Proof.
  exists (1/2).
  assert (E : np_max (map (fun z => 1/2 * z) [0; -1]) = Ok (1/2 * 0)).
  { simpl. f_equal. rewrite Rmax_left; lra. }
  unfold dispersion. rewrite E. cbn [bindR]. eexists. split; [lra|]. split; [reflexivity|]. simpl.
  rewrite !Rabs_right by lra. repeat split; lra.
Qed.

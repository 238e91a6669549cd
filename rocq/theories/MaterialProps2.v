(** Properties C125 (material instances) and C126 (derived attributes of materials). *)
From Coq Require Import Reals String Ascii List Bool Lia Lra Permutation Sorted.
From Verif Require Import Common ParamModel ParamProps PhysConst MobilityModel MaterialModel MaterialProps.
From Coq Require Import List.
Import ListNotations.
Open Scope string_scope.
Open Scope R_scope.
Open Scope list_scope.

(** * C125 *)

(** The order of names. *)
Definition name_le (a b : string) : Prop := String.compare a b <> Gt.

Lemma needed_spec comp kw : (forall e, In e comp -> exists x, lookup kw e = Some x) <-> needed comp kw = Ok tt.
Proof.
  induction comp as [|e comp IH]; cbn [needed]; [split; [reflexivity|intros _ e []]|]. destruct (lookup kw e) as [x|] eqn:E.
  - rewrite <- IH. split; [intros H e' I; apply H; now right|]. intros H e' [<-|I]; [now exists x|now apply H].
  - split; [|discriminate]. intros H. destruct (H e (or_introl eq_refl)) as (x & X). congruence.
Qed.
Lemma needed_err comp kw : needed comp kw = Ok tt \/ needed comp kw = Err KeyError.
Proof. induction comp as [|e comp IH]; cbn [needed]; [now left|]. destruct (lookup kw e); [exact IH|now right]. Qed.
Lemma insert_name_perm s l : Permutation (s :: l) (insert_name s l).
Proof.
  induction l as [|a l IH]; cbn [insert_name]; [apply Permutation_refl|]. destruct (String.compare s a); try apply Permutation_refl.
  eapply perm_trans; [apply perm_swap|]. now apply perm_skip.
Qed.
Lemma sorted_names_perm l : Permutation l (sorted_names l).
Proof. induction l as [|a l IH]; cbn [sorted_names fold_right]; [constructor|]. eapply perm_trans; [apply perm_skip, IH|]. apply insert_name_perm. Qed.
Lemma compare_gt_le s a : String.compare s a = Gt -> name_le a s.
Proof. unfold name_le. intros H. rewrite String.compare_antisym, H. discriminate. Qed.
Lemma insert_name_sorted s l : Sorted name_le l -> Sorted name_le (insert_name s l).
Proof.
  induction 1 as [|a l So IH Hd]; cbn [insert_name]; [repeat constructor|]. destruct (String.compare s a) eqn:E.
  - constructor; [now constructor|]. constructor. unfold name_le. rewrite E. discriminate.
  - constructor; [now constructor|]. constructor. unfold name_le. rewrite E. discriminate.
  - constructor; [exact IH|]. destruct l as [|b l]; cbn [insert_name]; [constructor; now apply compare_gt_le|].
    destruct (String.compare s b); constructor; try (now apply compare_gt_le). now inversion Hd.
Qed.
Lemma sorted_names_sorted l : Sorted name_le (sorted_names l).
Proof. induction l as [|a l IH]; cbn [sorted_names fold_right]; [constructor|]. now apply insert_name_sorted. Qed.
Lemma lookup_app {A} (l l' : list (string * A)) k : lookup (l ++ l') k = match lookup l k with Some x => Some x | None => lookup l' k end.
Proof. induction l as [|[a v] l IH]; cbn [app lookup]; [reflexivity|]. destruct (String.eqb a k); [reflexivity|exact IH]. Qed.

(** C125: an instance is made exactly when the fraction of every variable element is
    given, otherwise KeyError is raised; every keyword is an attribute with the given
    value (whatever the parameter system says), Na and Nd are 1 unless given, the main
    fraction is that of the first variable element, and the keywords are listed in order. *)
Theorem C125_instance : forall gp data c T kw,
  ((exists m, instance c T kw = Ok m) <-> (forall e, In e (c_comp c) -> exists x, lookup kw e = Some x)) /\
  (forall e, instance c T kw = Err e -> e = KeyError) /\
  forall m, instance c T kw = Ok m ->
    i_class m = c /\ i_T m = T /\
    (forall a v, lookup kw a = Some v -> attr gp data m a = Ok v) /\
    (lookup kw "Na" = None -> attr gp data m "Na" = Ok 1) /\ (lookup kw "Nd" = None -> attr gp data m "Nd" = Ok 1) /\
    (forall e l, c_comp c = e :: l -> lookup kw e = Some (i_main m)) /\
    Permutation (map fst kw) (i_keys m) /\ Sorted name_le (i_keys m).
Proof.
  intros gp data c T kw. unfold instance. split; [|split].
  - rewrite needed_spec. destruct (needed_err (c_comp c) kw) as [-> | ->]; cbn [bindR]; split.
    + reflexivity.
    + intros _. eexists. reflexivity.
    + intros (m & [=]).
    + discriminate.
  - intros e. destruct (needed_err (c_comp c) kw) as [-> | ->]; cbn [bindR]; congruence.
  - intros m. destruct (needed_err (c_comp c) kw) as [N|N]; rewrite N; cbn [bindR]; [|discriminate]. intros [= <-]. cbn [i_class i_T i_main i_keys].
    pose proof (proj2 (needed_spec (c_comp c) kw) N) as N0. clear N. rename N0 into N. split; [reflexivity|]. split; [reflexivity|]. split; [|split; [|split; [|split; [|split]]]].
    + intros a v E. unfold attr. cbn [i_attrs]. rewrite lookup_app, E. reflexivity.
    + intros E. unfold attr. cbn [i_attrs]. rewrite lookup_app, E. reflexivity.
    + intros E. unfold attr. cbn [i_attrs]. rewrite lookup_app, E. reflexivity.
    + intros e l E. rewrite E in *. destruct (N e (or_introl eq_refl)) as (x & X). now rewrite X.
    + apply sorted_names_perm.
    + apply sorted_names_sorted.
Qed.
(** Any other parameter is asked for at the instance's composition and temperature. *)
Theorem C125_parameter : forall gp data c T kw m a x el,
  instance c T kw = Ok m -> c_comp c = [el] -> lookup kw el = Some x -> lookup kw a = None ->
  ~ In a ["Na"; "Nd"; "electron_affinity"; "electron_mobility"; "hole_mobility"; "Nc"; "Nv"; "permittivity"; "ni"] ->
  attr gp data m a = gp (c_name c) a [(el, x); ("T", T)].
Proof.
  intros gp data c T kw m a x el H Hc Hx Ha N. unfold instance in H.
  destruct (needed (c_comp c) kw); [|discriminate]. cbn [bindR] in H. injection H as <-.
  unfold attr. cbn [i_attrs]. rewrite lookup_app, Ha. cbn [lookup].
  repeat match goal with |- context [String.eqb ?s a] => destruct (String.eqb_spec s a) as [<-|]; [exfalso; apply N; simpl; tauto|] end.
  unfold special. repeat match goal with |- context [String.eqb a ?s] => destruct (String.eqb_spec a s) as [->|]; [exfalso; apply N; simpl; tauto|] end.
  unfold comp_kwargs. cbn [i_class i_attrs i_T]. rewrite Hc. cbn [flat_map]. rewrite lookup_app, Hx. reflexivity.
Qed.
Definition ex_class : mclass := mkClass 0 Parameterised "AlGaAs" ["Al"] None.
Example C125_example : exists m, instance ex_class 300 [("Nd", 5); ("Al", 3 / 10)] = Ok m /\ i_keys m = ["Al"; "Nd"] /\ i_main m = 3 / 10 /\
  instance ex_class 300 [("Nd", 5)] = Err KeyError.
Proof. eexists. split; [reflexivity|]. repeat split; reflexivity. Qed.

(** * C126 *)

Section Derived.
Context (gp : string -> string -> kwargs -> res R) (data : table).
Notation attr := (attr gp data).

(** Neither set on the instance nor found in the tables without composition. *)
Definition untabulated (m : minst) (a : string) : Prop :=
  lookup (i_attrs m) a = None /\ exists e, gp (c_name (i_class m)) a [] = Err e.

Lemma tabulated_err m a r : untabulated m a -> tabulated gp m a r = r.
Proof. intros (_ & e & E). unfold tabulated. now rewrite E. Qed.
Lemma attr_plain m a : ~ In a ["electron_affinity"; "electron_mobility"; "hole_mobility"; "Nc"; "Nv"; "permittivity"; "ni"] ->
  attr m a = plain gp m a /\ attr1 gp data m a = plain gp m a.
Proof.
  intros N. unfold MaterialModel.attr, attr1, plain, special.
  repeat match goal with |- context [String.eqb a ?s] => destruct (String.eqb_spec a s) as [->|]; [exfalso; apply N; simpl; tauto|] end.
  split; reflexivity.
Qed.
Ltac plainly := match goal with |- context [plain gp ?m ?a] => rewrite <- (proj1 (attr_plain m a ltac:(simpl; intuition discriminate))) end.

(** C126, electron affinity: without a tabulated value, the vacuum level lies 4.76 eV
    above the zero of the valence band offsets; hence the valence band edges of any two
    such materials measured from the vacuum differ exactly by their offsets. *)
Theorem C126_affinity : forall m v g chi,
  untabulated m "electron_affinity" -> attr m "valence_band_offset" = Ok v -> attr m "band_gap" = Ok g ->
  attr m "electron_affinity" = Ok chi -> chi + g + v = 476 / 100 * q.
Proof.
  intros m v g chi U V G. destruct (attr_plain m "valence_band_offset") as [EV _]; [simpl; intuition discriminate|].
  destruct (attr_plain m "band_gap") as [EG _]; [simpl; intuition discriminate|]. rewrite EV in V. rewrite EG in G.
  unfold MaterialModel.attr. rewrite (proj1 U). change (String.eqb "electron_affinity" "ni") with false. cbv iota.
  unfold special. rewrite String.eqb_refl. rewrite tabulated_err by assumption. rewrite V, G. cbn [bindR]. intros [= <-]. lra.
Qed.
Theorem C126_offsets : forall m m' v g chi v' g' chi',
  untabulated m "electron_affinity" -> untabulated m' "electron_affinity" ->
  attr m "valence_band_offset" = Ok v -> attr m "band_gap" = Ok g -> attr m "electron_affinity" = Ok chi ->
  attr m' "valence_band_offset" = Ok v' -> attr m' "band_gap" = Ok g' -> attr m' "electron_affinity" = Ok chi' ->
  (chi + g) - (chi' + g') = v' - v.
Proof.
  intros m m' v g chi v' g' chi' U U' V G C V' G' C'. pose proof (C126_affinity _ _ _ _ U V G C). pose proof (C126_affinity _ _ _ _ U' V' G' C'). lra.
Qed.

(** C126, intrinsic density: the law of mass action, at any doping. *)
Theorem C126_mass_action : forall m nc nv g ni, lookup (i_attrs m) "ni" = None ->
  attr m "Nc" = Ok nc -> attr m "Nv" = Ok nv -> attr m "band_gap" = Ok g -> attr m "ni" = Ok ni ->
  0 < nc -> 0 < nv -> 0 < i_T m ->
  ni * ni = nc * nv * exp (- g / (kb * i_T m)) /\ 0 < ni /\ (0 < g -> ni * ni < nc * nv).
Proof.
  intros m nc nv g ni Un Nc Nv G E P1 P2 PT.
  assert (A : attr1 gp data m "Nc" = Ok nc) by (rewrite <- Nc; unfold attr1, MaterialModel.attr; reflexivity).
  assert (B : attr1 gp data m "Nv" = Ok nv) by (rewrite <- Nv; unfold attr1, MaterialModel.attr; reflexivity).
  assert (D : attr1 gp data m "band_gap" = Ok g) by (rewrite <- G; unfold attr1, MaterialModel.attr; reflexivity).
  unfold MaterialModel.attr in E. rewrite Un in E. cbn [String.eqb Ascii.eqb Bool.eqb] in E. rewrite A, B, D in E. cbn [bindR] in E.
  injection E as <-.
  assert (PX : 0 < nc * nv) by now apply Rmult_lt_0_compat.
  assert (PE : 0 < nc * nv * exp (- g / (kb * i_T m))) by (apply Rmult_lt_0_compat; [assumption|apply exp_pos]).
  assert (SQ : sqrt (nc * nv * exp (- g / (kb * i_T m))) * sqrt (nc * nv * exp (- g / (kb * i_T m))) = nc * nv * exp (- g / (kb * i_T m))) by (apply sqrt_sqrt; lra).
  split; [exact SQ|]. split; [now apply sqrt_lt_R0|]. intros Pg. rewrite SQ.
  rewrite <- (Rmult_1_r (nc * nv)) at 2. apply Rmult_lt_compat_l; [assumption|]. rewrite <- exp_0. apply exp_increasing.
  pose proof kb_pos. assert (0 < g / (kb * i_T m)) by (apply Rdiv_lt_0_compat; [assumption|now apply Rmult_lt_0_compat]).
  unfold Rdiv in *. lra.
Qed.

(** The densities of states are positive and grow with temperature. *)
Lemma dos_grows mass T T' : 0 < mass -> 0 < T -> T < T' -> 0 < dos mass T < dos mass T'.
Proof.
  intros Pm PT L. unfold dos. pose proof kb_pos. pose proof electron_mass_pos. pose proof h_pos. pose proof PI_RGT_0.
  assert (K : forall t, 2 * PI * mass * electron_mass * kb * t / (h * h) = 2 * PI * mass * electron_mass * kb / (h * h) * t) by (intros; field; lra).
  rewrite !K. set (A := 2 * PI * mass * electron_mass * kb / (h * h)).
  assert (PA : 0 < A).
  { unfold A. apply Rdiv_lt_0_compat; [|now apply Rmult_lt_0_compat]. do 4 (apply Rmult_lt_0_compat; [|assumption]); lra. }
  assert (0 < A * T) by now apply Rmult_lt_0_compat. assert (A * T < A * T') by now apply Rmult_lt_compat_l.
  split; [apply Rmult_lt_0_compat; [lra|apply exp_pos]|]. apply Rmult_lt_compat_l; [lra|].
  unfold Rpower. apply exp_increasing, Rmult_lt_compat_l; [lra|]. apply ln_increasing; lra.
Qed.
Lemma Nc_value m me : untabulated m "Nc" -> attr m "eff_mass_electron" = Ok me -> attr m "Nc" = Ok (dos me (i_T m)).
Proof.
  intros U E. rewrite (proj1 (attr_plain m "eff_mass_electron" ltac:(simpl; intuition discriminate))) in E.
  unfold MaterialModel.attr. rewrite (proj1 U). cbn [String.eqb Ascii.eqb Bool.eqb]. unfold special. cbn [String.eqb Ascii.eqb Bool.eqb].
  rewrite tabulated_err by assumption. now rewrite E.
Qed.
Lemma Nv_value m mh ml : untabulated m "Nv" -> attr m "eff_mass_hh_z" = Ok mh -> attr m "eff_mass_lh_z" = Ok ml ->
  attr m "Nv" = Ok (dos mh (i_T m) + dos ml (i_T m)).
Proof.
  intros U E E'. rewrite (proj1 (attr_plain m "eff_mass_hh_z" ltac:(simpl; intuition discriminate))) in E.
  rewrite (proj1 (attr_plain m "eff_mass_lh_z" ltac:(simpl; intuition discriminate))) in E'.
  unfold MaterialModel.attr. rewrite (proj1 U). cbn [String.eqb Ascii.eqb Bool.eqb]. unfold special. cbn [String.eqb Ascii.eqb Bool.eqb].
  rewrite tabulated_err by assumption. now rewrite E, E'.
Qed.

(** C126, temperature: two instances with the same masses, the hotter one with a gap no
    larger: it has the larger densities of states and the larger intrinsic density. *)
Theorem C126_temperature : forall m m' me mh ml g g' ni ni',
  untabulated m "Nc" -> untabulated m "Nv" -> untabulated m' "Nc" -> untabulated m' "Nv" ->
  lookup (i_attrs m) "ni" = None -> lookup (i_attrs m') "ni" = None ->
  attr m "eff_mass_electron" = Ok me -> attr m' "eff_mass_electron" = Ok me ->
  attr m "eff_mass_hh_z" = Ok mh -> attr m' "eff_mass_hh_z" = Ok mh ->
  attr m "eff_mass_lh_z" = Ok ml -> attr m' "eff_mass_lh_z" = Ok ml ->
  attr m "band_gap" = Ok g -> attr m' "band_gap" = Ok g' ->
  attr m "ni" = Ok ni -> attr m' "ni" = Ok ni' ->
  0 < me -> 0 < mh -> 0 < ml -> 0 <= g' <= g -> 0 < i_T m < i_T m' ->
  (exists nc nc' nv nv', attr m "Nc" = Ok nc /\ attr m' "Nc" = Ok nc' /\ attr m "Nv" = Ok nv /\ attr m' "Nv" = Ok nv' /\ nc < nc' /\ nv < nv') /\
  ni < ni'.
Proof.
  intros m m' me mh ml g g' ni ni' U1 U2 U1' U2' Un Un' E1 E1' E2 E2' E3 E3' G G' N N' P1 P2 P3 Pg [PT L].
  pose proof (Nc_value _ _ U1 E1) as C. pose proof (Nc_value _ _ U1' E1') as C'.
  pose proof (Nv_value _ _ _ U2 E2 E3) as V. pose proof (Nv_value _ _ _ U2' E2' E3') as V'.
  destruct (dos_grows me _ _ P1 PT L) as [A1 A2]. destruct (dos_grows mh _ _ P2 PT L) as [B1 B2]. destruct (dos_grows ml _ _ P3 PT L) as [D1 D2].
  split; [do 4 eexists; repeat split; eauto; lra|].
  destruct (C126_mass_action m _ _ g ni Un C V G N A1 ltac:(lra) PT) as (M & Pn & _).
  destruct (C126_mass_action m' _ _ g' ni' Un' C' V' G' N' ltac:(lra) ltac:(lra) ltac:(lra)) as (M' & Pn' & _).
  assert (X : exp (- g / (kb * i_T m)) <= exp (- g' / (kb * i_T m'))).
  { pose proof kb_pos. assert (K : - g / (kb * i_T m) <= - g' / (kb * i_T m')).
    { unfold Rdiv. assert (/ (kb * i_T m') <= / (kb * i_T m)) by (apply Rinv_le_contravar; [now apply Rmult_lt_0_compat|apply Rmult_le_compat_l; lra]).
      assert (0 < / (kb * i_T m')) by (apply Rinv_0_lt_compat, Rmult_lt_0_compat; lra). nra. }
    destruct K as [K|K]; [left; now apply exp_increasing|right; now rewrite K]. }
  assert (PX : 0 < exp (- g / (kb * i_T m))) by apply exp_pos.
  set (x := exp (- g / (kb * i_T m))) in *. set (x' := exp (- g' / (kb * i_T m'))) in *. clearbody x x'.
  set (a := dos me (i_T m)) in *. set (a' := dos me (i_T m')) in *.
  set (b := dos mh (i_T m) + dos ml (i_T m)) in *. set (b' := dos mh (i_T m') + dos ml (i_T m')) in *.
  assert (b < b') by (unfold b, b'; lra). assert (0 < b) by (unfold b; lra). clearbody a a' b b'.
  assert (Y : a * b * x < a' * b' * x').
  { apply Rlt_le_trans with (a' * b' * x); [|apply Rmult_le_compat_l; [|assumption]; apply Rmult_le_pos; lra].
    apply Rmult_lt_compat_r; [assumption|]. nra. }
  nra.
Qed.

(** C126, the power law: r times the temperature gives r^(3/2) times the densities of
    states (8 times at 4 times the temperature). *)
Lemma dos_power mass T r : 0 < mass -> 0 < T -> 0 < r -> dos mass (r * T) = r * sqrt r * dos mass T.
Proof.
  intros Pm PT Pr. unfold dos. pose proof kb_pos. pose proof electron_mass_pos. pose proof h_pos. pose proof PI_RGT_0.
  replace (2 * PI * mass * electron_mass * kb * (r * T) / (h * h)) with (r * (2 * PI * mass * electron_mass * kb * T / (h * h))) by (field; lra).
  assert (PA : 0 < 2 * PI * mass * electron_mass * kb * T / (h * h)).
  { apply Rdiv_lt_0_compat; [|now apply Rmult_lt_0_compat]. do 5 (apply Rmult_lt_0_compat; [|assumption]); lra. }
  rewrite <- Rpower_mult_distr by assumption. replace (15 / 10) with (1 + / 2) at 1 by lra.
  rewrite Rpower_plus, Rpower_1, Rpower_sqrt by assumption. ring.
Qed.
Theorem C126_power : forall m m' me mh ml r,
  untabulated m "Nc" -> untabulated m "Nv" -> untabulated m' "Nc" -> untabulated m' "Nv" ->
  attr m "eff_mass_electron" = Ok me -> attr m' "eff_mass_electron" = Ok me ->
  attr m "eff_mass_hh_z" = Ok mh -> attr m' "eff_mass_hh_z" = Ok mh ->
  attr m "eff_mass_lh_z" = Ok ml -> attr m' "eff_mass_lh_z" = Ok ml ->
  0 < me -> 0 < mh -> 0 < ml -> 0 < i_T m -> 0 < r -> i_T m' = r * i_T m ->
  exists nc nv, attr m "Nc" = Ok nc /\ attr m "Nv" = Ok nv /\
    attr m' "Nc" = Ok (r * sqrt r * nc) /\ attr m' "Nv" = Ok (r * sqrt r * nv).
Proof.
  intros m m' me mh ml r U1 U2 U1' U2' E1 E1' E2 E2' E3 E3' P1 P2 P3 PT Pr ET.
  rewrite (Nc_value _ _ U1 E1), (Nc_value _ _ U1' E1'), (Nv_value _ _ _ U2 E2 E3), (Nv_value _ _ _ U2' E2' E3'), ET.
  do 2 eexists. split; [reflexivity|]. split; [reflexivity|]. rewrite !dos_power by assumption.
  split; f_equal; ring.
Qed.

(** A value in the tables (read without composition or temperature) is returned at every
    temperature. *)
Theorem C126_tabulated : forall m a v, lookup (i_attrs m) a = None ->
  In a ["electron_affinity"; "electron_mobility"; "hole_mobility"; "Nc"; "Nv"] ->
  gp (c_name (i_class m)) a [] = Ok v -> attr m a = Ok v.
Proof.
  intros m a v N I E. unfold MaterialModel.attr. rewrite N.
  simpl in I. destruct I as [<-|[<-|[<-|[<-|[<-|[]]]]]]; unfold special, tabulated; cbn [String.eqb Ascii.eqb Bool.eqb]; now rewrite E.
Qed.
End Derived.

(** * With the parameter system *)

(** [get_parameter] as the material sees it; unbounded recursion raises. *)
Definition gp_of db parse si builtin (fuel : nat) (m p : string) (o : kwargs) : res R :=
  match get_parameter db parse si builtin fuel m p o with Some r => r | None => Err RecursionError end.

(** Alloys never use tabulated values: the parameter system refuses to answer without a
    composition, and the refusal is taken for a missing entry. *)
Theorem C126_alloy : forall db parse si builtin fuel m a el,
  lookup db (c_name (i_class m)) <> None -> opt db (c_name (i_class m)) "x" = Some el ->
  (opt db "Final Calculables" a = None \/ opt db (c_name (i_class m)) a <> None) -> lookup (i_attrs m) a = None ->
  untabulated (gp_of db parse si builtin fuel) m a.
Proof.
  intros db parse si builtin fuel m a el Hs Hx Hf Ha. split; [assumption|]. unfold gp_of.
  destruct fuel as [|f]; [eexists; reflexivity|]. cbn [get_parameter]. destruct (lookup db (c_name (i_class m))) eqn:El; [|contradiction].
  exists KeyError. rewrite Hx. cbn [lookup].
  destruct (opt db "Final Calculables" a) eqn:E1; destruct (opt db (c_name (i_class m)) a) eqn:E2; try reflexivity.
  exfalso. destruct Hf as [X|X]; [discriminate|now apply X].
Qed.

(** A database in which both parents of an alloy have Nc = 1. *)
Definition alloy_db : database :=
  [("A", [("Nc", "1")]); ("B", [("Nc", "1")]); ("AB", [("x", "X"); ("parent0", "A"); ("parent1", "B")])].
Definition one_parse (s : string) : res expr := if String.eqb s "1" then Ok (ENum 1) else Err ParsingError.
Definition alloy_m : minst := mkInst (mkClass 0 Parameterised "AB" ["X"] None) [("X", 1 / 2); ("Na", 1); ("Nd", 1)] 300 (1 / 2) ["X"].
Definition alloy_gp := gp_of alloy_db one_parse (fun v _ => Ok v) (fun _ => None) 5.
(** The parameter system knows Nc of the alloy, but the attribute is not available. *)
Theorem C126_alloy_refuted : forall data,
  alloy_gp "AB" "Nc" (comp_kwargs alloy_m) = Ok 1 /\ attr alloy_gp data alloy_m "Nc" = Err ValueError.
Proof.
  intros data. split.
  - unfold alloy_gp, gp_of, comp_kwargs. simpl. unfold ParamModel.bow. f_equal. lra.
  - reflexivity.
Qed.
Example C126_alloy_example : lookup alloy_db (c_name (i_class alloy_m)) <> None /\ opt alloy_db (c_name (i_class alloy_m)) "x" = Some "X" /\
  opt alloy_db "Final Calculables" "Nc" = None /\ lookup (i_attrs alloy_m) "Nc" = None.
Proof. split; [discriminate|]. repeat split. Qed.

(** An instance with masses and gap given, at two temperatures. *)
Definition hot (T : R) : minst :=
  mkInst (mkClass 0 Parameterised "A" [] None)
    [("eff_mass_electron", 1); ("eff_mass_hh_z", 1); ("eff_mass_lh_z", 1); ("band_gap", q); ("valence_band_offset", - q); ("Na", 1); ("Nd", 1)] T 0 [].
Definition no_gp (m p : string) (o : kwargs) : res R := Err ValueError.
Example C126_temperature_example data :
  untabulated no_gp (hot 300) "Nc" /\ untabulated no_gp (hot 400) "Nv" /\ untabulated no_gp (hot 300) "electron_affinity" /\
  0 < i_T (hot 300) < i_T (hot 400) /\ attr no_gp data (hot 300) "valence_band_offset" = Ok (- q) /\
  exists ni ni', attr no_gp data (hot 300) "ni" = Ok ni /\ attr no_gp data (hot 400) "ni" = Ok ni'.
Proof.
  split; [split; [reflexivity|now exists ValueError]|]. split; [split; [reflexivity|now exists ValueError]|].
  split; [split; [reflexivity|now exists ValueError]|]. split; [simpl; lra|]. split; [reflexivity|]. do 2 eexists. split; reflexivity.
Qed.
Example C126_tabulated_example : lookup (i_attrs (hot 300)) "Nc" = None /\ alloy_gp (c_name (i_class (hot 300))) "Nc" [] = Ok 1.
Proof. split; reflexivity. Qed.
Example C126_power_example data : untabulated no_gp (hot 300) "Nc" /\ untabulated no_gp (hot 1200) "Nv" /\
  attr no_gp data (hot 300) "eff_mass_electron" = Ok 1 /\ i_T (hot 1200) = 4 * i_T (hot 300) /\ 4 * sqrt 4 = 8.
Proof.
  split; [split; [reflexivity|now exists ValueError]|]. split; [split; [reflexivity|now exists ValueError]|].
  split; [reflexivity|]. split; [simpl; lra|]. replace 4 with (2 * 2) at 2 by lra. rewrite sqrt_square; lra.
Qed.

(** C156: external optics. C157: energy in the RCWA optics. C158: the S4 options. C159: what S4
    is told about layers and shapes. *)
From Coq Require Import Reals String List Arith Bool Lra Lia Psatz.
From Coquelicot Require Import Coquelicot.
From Verif Require Import Common ParamModel MaterialModel MaterialProps NpModel TmmModel TmmProps StackModel RatModel RatProps
  RatProps2 RcwaModel.
From Coq Require Import List.
Import ListNotations.
Open Scope R_scope.
Open Scope list_scope.

(** * C156: external optics *)
(** Elements one after the other from the depth [a]. *)
Fixpoint consecutive (a : R) (es : list (R * R)) : Prop :=
  match es with [] => True | (o, w) :: r => o = a /\ 0 <= w /\ consecutive (a + w) r end.
Definition thickness (es : list (R * R)) : R := total (map snd es).
(** The light lost to shading is taken off everything that is reported for the cell, and what is
    reported adds up to the rest. *)
Theorem C156_balance : forall c position out, snd (solve_external c position) = Ok out ->
  let lit := match ec_shading c with Some s => 1 - s | None => 1 end in
  eo_refl out + eo_abs out + eo_trans out = lit /\
  exists r d, ec_refl c = Some (ENumber r) /\ ec_abs c = Some d /\
    eo_refl out = lit * r /\ eo_abs out = lit * np_trapz (map d position) position /\
    fst (solve_external c position) = Some (eo_refl out).
Proof.
  intros c position out H lit. unfold solve_external in *. fold (initial_light (ec_shading c)) in lit.
  destruct (ec_refl c) as [[r|f]|]; [|discriminate|discriminate].
  destruct (ec_abs c) as [d|]; [|discriminate]. cbn [snd fst] in *. injection H as <-. cbn [eo_refl eo_abs eo_trans].
  fold lit. split; [ring|]. exists r, d. repeat split; ring.
Qed.
(** The errors, and what has been written when they are raised. *)
Theorem C156_missing : forall c position,
  (ec_refl c = None -> solve_external c position = (None, Err AttributeError)) /\
  (forall r, ec_refl c = Some (ENumber r) -> ec_abs c = None ->
     fst (solve_external c position) = Some (match ec_shading c with Some s => 1 - s | None => 1 end * r) /\
     snd (solve_external c position) = Err AttributeError) /\
  (forall r, ec_refl c = Some (ENumber r) -> ec_abs c <> None -> exists out, snd (solve_external c position) = Ok out).
Proof.
  intros c position. unfold solve_external. split; [intros ->; reflexivity|]. split.
  - intros r -> ->. split; [cbn [fst]; f_equal; unfold initial_light; destruct (ec_shading c); ring|reflexivity].
  - intros r -> H. destruct (ec_abs c); [eexists; reflexivity|now elim H].
Qed.
(** The documentation asks for a function of the wavelength as external_reflected: no such cell
    is ever solved. *)
Theorem C156_function_refuted : forall c position f, ec_refl c = Some (EFunction f) ->
  solve_external c position = (None, Err TypeError).
Proof. intros c position f H. unfold solve_external. now rewrite H. Qed.
(** An element sees the profile of the cell from its own offset on and nothing below its end. *)
Theorem C156_element : forall c position out i o w, snd (solve_external c position) = Ok out ->
  nth_error (ec_elements c) i = Some (o, w) ->
  exists g d, nth_error (eo_elements out) i = Some g /\ ec_abs c = Some d /\
    (forall z, z < w -> g z = d (o + z)) /\ (forall z, w <= z -> g z = 0).
Proof.
  intros c position out i o w H Hi. unfold solve_external in H.
  destruct (ec_refl c) as [[r|f]|]; [|discriminate|discriminate].
  destruct (ec_abs c) as [d|]; [|discriminate]. cbn [snd] in H. injection H as <-. cbn [eo_elements].
  exists (ext_absorbed d o w), d. split; [|split; [reflexivity|split]].
  - rewrite nth_error_map, Hi. reflexivity.
  - intros z Hz. unfold ext_absorbed. destruct (Rlt_dec z w); [ring|lra].
  - intros z Hz. unfold ext_absorbed. destruct (Rlt_dec z w); [lra|ring].
Qed.
Lemma RInt_element (d : R -> R) a w : 0 <= w -> ex_RInt d a (a + w) ->
  RInt (ext_absorbed d a w) 0 w = RInt d a (a + w).
Proof.
  intros Hw [v Hv]. rewrite (is_RInt_unique (V := R_CompleteNormedModule) _ _ _ _ Hv).
  apply (is_RInt_unique (V := R_CompleteNormedModule)).
  apply is_RInt_ext with (f := fun z => scal 1 (d (1 * z + a))).
  - rewrite Rmin_left, Rmax_right by exact Hw. intros z [_ Hz]. change (@eq R (1 * d (1 * z + a)) (ext_absorbed d a w z)).
    unfold ext_absorbed. destruct (Rlt_dec z w); [|lra]. replace (1 * z + a) with (a + z) by ring. ring.
  - refine (is_RInt_comp_lin (V := R_NormedModule) d 1 a 0 w v _). replace (1 * 0 + a) with a by ring. replace (1 * w + a) with (a + w) by ring. exact Hv.
Qed.
Lemma RInt_elements (d : R -> R) : forall es a, consecutive a es -> ex_RInt d a (a + thickness es) ->
  total (map (fun e => RInt (ext_absorbed d (fst e) (snd e)) 0 (snd e)) es) = RInt d a (a + thickness es).
Proof.
  induction es as [|[o w] es IH]; intros a H HI; cbn [map total].
  - unfold thickness. cbn. rewrite Rplus_0_r. symmetry. exact (RInt_point (V := R_CompleteNormedModule) a d).
  - cbn [consecutive] in H. destruct H as (-> & Hw & H). cbn [fst snd].
    unfold thickness in HI. cbn [map total snd] in HI. fold (thickness es) in HI.
    replace (a + (w + thickness es)) with (a + w + thickness es) in HI by ring.
    assert (HT : 0 <= thickness es).
    { clear - H. revert H. generalize (a + w). induction es as [|[o v] es IH]; intros b H; unfold thickness; cbn [map total snd].
      - lra.
      - cbn [consecutive] in H. destruct H as (_ & Hv & H). apply IH in H. unfold thickness in H. lra. }
    assert (H1 : ex_RInt d a (a + w)) by (apply (ex_RInt_Chasles_1 (V := R_CompleteNormedModule)) with (2 := HI); lra).
    assert (H2 : ex_RInt d (a + w) (a + w + thickness es))
      by (apply (ex_RInt_Chasles_2 (V := R_CompleteNormedModule)) with (2 := HI); lra).
    rewrite RInt_element by assumption. rewrite (IH _ H H2).
    unfold thickness. cbn [map total snd]. fold (thickness es).
    replace (a + (w + thickness es)) with (a + w + thickness es) by ring.
    exact (RInt_Chasles (V := R_CompleteNormedModule) d a (a + w) (a + w + thickness es) H1 H2).
Qed.
(** What the elements of the cell generate, each integrated over its own width, is the integral of
    the external profile over the cell. *)
Theorem C156_partition : forall c position out d, snd (solve_external c position) = Ok out ->
  ec_abs c = Some d -> consecutive 0 (ec_elements c) -> ex_RInt d 0 (thickness (ec_elements c)) ->
  total (map (fun p => RInt (fst p) 0 (snd (snd p))) (combine (eo_elements out) (ec_elements c)))
  = RInt d 0 (thickness (ec_elements c)).
Proof.
  intros c position out d H Hd HC HI. unfold solve_external in H.
  destruct (ec_refl c) as [[r|f]|]; [|discriminate|discriminate]. rewrite Hd in H. cbn [snd] in H. injection H as <-.
  cbn [eo_elements]. rewrite <- (Rplus_0_l (thickness _)) in HI |- *. rewrite <- (RInt_elements d _ _ HC HI).
  f_equal. clear. induction (ec_elements c) as [|e es IH]; [reflexivity|]. cbn [map combine fst snd]. now rewrite IH.
Qed.
(** The light lost to shading is not taken off the elements: with any shading at all, the elements
    generate more than the cell is said to absorb, for every profile whose integral the trapezium
    rule gives exactly. *)
Theorem C156_shading_refuted : forall c position out d s, snd (solve_external c position) = Ok out ->
  ec_abs c = Some d -> ec_shading c = Some s -> 0 < s ->
  consecutive 0 (ec_elements c) -> ex_RInt d 0 (thickness (ec_elements c)) ->
  np_trapz (map d position) position = RInt d 0 (thickness (ec_elements c)) ->
  0 < np_trapz (map d position) position ->
  eo_abs out < total (map (fun p => RInt (fst p) 0 (snd (snd p))) (combine (eo_elements out) (ec_elements c))).
Proof.
  intros c position out d s H Hd Hs Ps HC HI HT HP.
  rewrite (C156_partition c position out d H Hd HC HI), <- HT.
  destruct (C156_balance c position out H) as (_ & r & d' & _ & E & _ & EA & _).
  rewrite Hd in E. injection E as <-. rewrite EA, Hs. nra.
Qed.
(** Two layers of 100 nm and 300 nm with a constant profile, 5 % shading, 10 % reflection. *)
Definition ext_example : ext_cell :=
  ExtCell (Some (/ 20)) (Some (ENumber (/ 10))) (Some (fun _ => 2)) [(0, / 10); (/ 10, 3 / 10)].
Example C156_example : exists out, snd (solve_external ext_example [0; / 10; 4 / 10]) = Ok out /\
  consecutive 0 (ec_elements ext_example) /\ ex_RInt (fun _ => 2) 0 (thickness (ec_elements ext_example)) /\
  np_trapz (map (fun _ => 2) [0; / 10; 4 / 10]) [0; / 10; 4 / 10] = RInt (fun _ => 2) 0 (thickness (ec_elements ext_example)) /\
  eo_refl out = 95 / 1000 /\ eo_abs out = 760 / 1000 /\ eo_trans out = 95 / 1000.
Proof.
  eexists. split; [reflexivity|]. cbn [ec_elements ext_example]. split; [cbn [consecutive]; lra|].
  split; [apply ex_RInt_const|]. split.
  - rewrite RInt_const. unfold thickness, scal. cbn. unfold mult. cbn. lra.
  - cbn. lra.
Qed.

(** * C157: energy *)
(** The net power flow into a layer. *)
Definition Phi (F : flux) (i : nat) : R := Re (net F i 0).
(** What can be expected of the solver with [n] layers, both outer media included: the incident
    wave carries cos(theta)/n, and no power is lost at the first interface. *)
Definition lit (F : flux) (theta n_inc : R) : Prop :=
  Re (fst (F 1%nat 0)) = cosd theta / n_inc /\ Phi F 1 = Phi F 2.
(** No layer gives power back. *)
Definition lossy (F : flux) (n : nat) : Prop := forall i, (2 <= i < n)%nat -> Phi F (S i) <= Phi F i.
Lemma Re_minus a b : Re (a - b)%C = Re a - Re b.
Proof. reflexivity. Qed.
Lemma Re_plus a b : Re (a + b)%C = Re a + Re b.
Proof. reflexivity. Qed.
Lemma rcwa_T_Phi F n theta n_inc : rcwa_T F n theta n_inc = n_inc / cosd theta * Phi F n.
Proof.
  unfold rcwa_T, Phi. assert (E : forall (x : R) (z : C), Re (RtoC x * z)%C = x * Re z) by (intros x z; unfold Re; cbn; ring).
  rewrite E. unfold Rdiv. ring.
Qed.
Lemma rcwa_R_Phi F theta n_inc : lit F theta n_inc -> 0 < n_inc -> 0 < cosd theta ->
  rcwa_R F theta n_inc = 1 - n_inc / cosd theta * Phi F 2.
Proof.
  intros [H1 H2] Hn Hc. rewrite <- H2. unfold rcwa_R, Phi, net. rewrite Re_plus, H1. field. lra.
Qed.
Lemma per_layer_length F n theta n_inc : length (rcwa_absorption_per_layer F n theta n_inc) = (n - 2)%nat.
Proof. unfold rcwa_absorption_per_layer. now rewrite !map_length, seq_length. Qed.
Lemma per_layer_nth F n theta n_inc i : (i < n - 2)%nat ->
  nth i (rcwa_absorption_per_layer F n theta n_inc) 0
  = n_inc / cosd theta * Rmax 0 (Phi F (i + 2) - Phi F (i + 3)).
Proof.
  intros Hi. unfold rcwa_absorption_per_layer.
  set (g := fun x : R => n_inc * (if Rlt_dec 0 x then x else 0) / cosd theta).
  rewrite map_map, (nth_indep _ 0 ((fun layer => g (Re (net F layer 0 - net F (layer + 1) 0)%C)) 0%nat))
    by (now rewrite map_length, seq_length).
  rewrite (map_nth (fun layer => g (Re (net F layer 0 - net F (layer + 1) 0)%C))), seq_nth by exact Hi.
  unfold g, Phi. rewrite Re_minus. replace (2 + i + 1)%nat with (i + 3)%nat by lia. replace (2 + i)%nat with (i + 2)%nat by lia.
  destruct (Rlt_dec 0 (Re (net F (i + 2) 0) - Re (net F (i + 3) 0))) as [h|h].
  - rewrite Rmax_right by lra. unfold Rdiv. ring.
  - rewrite Rmax_left by lra. unfold Rdiv. ring.
Qed.
Lemma total_list (l : list R) (g : nat -> R) : (forall i, (i < length l)%nat -> nth i l 0 = g i) ->
  total l = total (map g (seq 0 (length l))).
Proof.
  revert g. induction l as [|x l IH]; intros g H; [reflexivity|]. cbn [length seq map total].
  rewrite <- (H 0%nat) by (cbn; lia). cbn [nth]. f_equal. rewrite <- seq_shift, map_map. apply IH.
  intros i Hi. apply (H (S i)). cbn. lia.
Qed.
(** The powers that layers give back, [gain], against the telescoping sum. *)
Lemma telescope (f : nat -> R) : forall m a,
  total (map (fun i => Rmax 0 (f (a + i)%nat - f (a + i + 1)%nat)) (seq 0 m))
  = f a - f (a + m)%nat + total (map (fun i => Rmax 0 (f (a + i + 1)%nat - f (a + i)%nat)) (seq 0 m)).
Proof.
  induction m as [|m IH]; intros a; cbn [seq map total].
  - rewrite Nat.add_0_r. lra.
  - rewrite <- !seq_shift, !map_map. specialize (IH (S a)).
    rewrite (map_ext (fun x => Rmax 0 (f (a + S x)%nat - f (a + S x + 1)%nat)) (fun i => Rmax 0 (f (S a + i)%nat - f (S a + i + 1)%nat)))
      by (intros i; now replace (a + S i)%nat with (S a + i)%nat by lia).
    rewrite (map_ext (fun x => Rmax 0 (f (a + S x + 1)%nat - f (a + S x)%nat)) (fun i => Rmax 0 (f (S a + i + 1)%nat - f (S a + i)%nat)))
      by (intros i; now replace (a + S i)%nat with (S a + i)%nat by lia).
    rewrite IH, Nat.add_0_r. replace (a + S m)%nat with (S a + m)%nat by lia. replace (a + 1)%nat with (S a) by lia.
    destruct (Rle_dec 0 (f a - f (S a))).
    + rewrite (Rmax_right 0 (f a - f (S a))), (Rmax_left 0 (f (S a) - f a)) by lra. lra.
    + rewrite (Rmax_left 0 (f a - f (S a))), (Rmax_right 0 (f (S a) - f a)) by lra. lra.
Qed.
Definition gain (F : flux) (n : nat) : R :=
  total (map (fun i => Rmax 0 (Phi F (2 + i + 1) - Phi F (2 + i))) (seq 0 (n - 2))).
Lemma energy F n theta n_inc : (2 <= n)%nat -> lit F theta n_inc -> 0 < n_inc -> 0 < cosd theta ->
  rcwa_R F theta n_inc + total (rcwa_absorption_per_layer F n theta n_inc) + rcwa_T F n theta n_inc
  = 1 + n_inc / cosd theta * gain F n.
Proof.
  intros Hn HL Pn Pc. rewrite rcwa_R_Phi, rcwa_T_Phi by assumption.
  rewrite (total_list _ (fun i => n_inc / cosd theta * Rmax 0 (Phi F (2 + i) - Phi F (2 + i + 1)))).
  2:{ rewrite per_layer_length. intros i Hi. rewrite per_layer_nth by exact Hi.
      replace (i + 2)%nat with (2 + i)%nat by lia. now replace (i + 3)%nat with (2 + i + 1)%nat by lia. }
  rewrite per_layer_length.
  assert (Sc : forall (g : nat -> R) l k, total (map (fun i => k * g i) l) = k * total (map g l)).
  { intros g l k. induction l as [|x l IH]; cbn [map total]; [ring|]. rewrite IH. ring. }
  rewrite (Sc (fun i => Rmax 0 (Phi F (2 + i) - Phi F (2 + i + 1)))), (telescope (Phi F) (n - 2) 2).
  replace (2 + (n - 2))%nat with n by lia. unfold gain. ring.
Qed.
Lemma gain_nonneg F n : 0 <= gain F n.
Proof.
  unfold gain. apply total_nonneg'. rewrite Forall_map, Forall_forall. intros i _. apply Rmax_l.
Qed.
Lemma gain_lossy F n : lossy F n -> gain F n = 0.
Proof.
  intros H. unfold gain. rewrite (map_ext_in _ (fun _ => 0)).
  - induction (seq 0 (n - 2)) as [|x l IH]; cbn [map total]; [reflexivity|]. rewrite IH. ring.
  - intros i Hi. apply in_seq in Hi. apply Rmax_left. specialize (H (2 + i)%nat ltac:(lia)).
    replace (2 + i + 1)%nat with (S (2 + i)) by lia. lra.
Qed.
Lemma per_layer_nonneg F n theta n_inc : 0 < n_inc -> 0 < cosd theta ->
  Forall (fun x => 0 <= x) (rcwa_absorption_per_layer F n theta n_inc).
Proof.
  intros Hn Hc. unfold rcwa_absorption_per_layer. rewrite Forall_map, Forall_forall. intros x _.
  apply Rdiv_le_0_compat; [|exact Hc]. apply Rmult_le_pos; [lra|]. destruct (Rlt_dec 0 x); lra.
Qed.
(** Excitations: a wave of unit amplitude, and what [pol] asks for. *)
Definition unit_wave (a : C * C) : Prop := Cmod (fst a) ^ 2 + Cmod (snd a) ^ 2 = 1.
Definition wave (pol : pol_t) (a : C * C) : Prop :=
  (pol = PStr "s" /\ a = (RtoC 1, RtoC 0)) \/ (pol = PStr "p" /\ a = (RtoC 0, RtoC 1)) \/
  (pol = PTup [fst a; snd a] /\ unit_wave a).
Lemma unit_s : unit_wave (RtoC 1, RtoC 0).
Proof. unfold unit_wave. cbn [fst snd]. rewrite !Cmod_R, Rabs_R0, Rabs_R1. lra. Qed.
Lemma unit_p : unit_wave (RtoC 0, RtoC 1).
Proof. unfold unit_wave. cbn [fst snd]. rewrite !Cmod_R, Rabs_R0, Rabs_R1. lra. Qed.
Lemma wave_unit pol a : wave pol a -> unit_wave a.
Proof. intros [[_ ->]|[[_ ->]|[_ H]]]; [apply unit_s|apply unit_p|exact H]. Qed.
Definition front_n (incidence : option mat) (wl : R) : R :=
  match incidence with None => 1 | Some m => m_n m (wl / 10 ^ 9) end.
Lemma n_inc_front structure incidence substrate wl : 0 < front_n incidence wl ->
  n_inc_of (layers_oc structure incidence substrate wl) = front_n incidence wl.
Proof.
  intros H. unfold n_inc_of, layers_oc. cbn [hd]. destruct incidence as [m|]; cbn [front_n] in *.
  - change (sqrt (m_n m (wl / 10 ^ 9) ^ 2) = m_n m (wl / 10 ^ 9)). rewrite sqrt_pow2; lra.
  - change (sqrt 1 = 1). exact sqrt_1.
Qed.
Lemma widths_length structure : length (rcwa_widths structure) = (length structure + 2)%nat.
Proof. unfold rcwa_widths. cbn [length]. rewrite app_length, map_length. cbn. lia. Qed.
Lemma RCWA_wave S4 m wl theta phi n n_inc pol a : wave pol a ->
  RCWA_wl S4 m wl theta phi n n_inc pol =
  let F := S4 m (1 / wl) (theta, phi) a in
  Ok (rcwa_R F theta n_inc, rcwa_T F n theta n_inc, AOne (rcwa_absorption_per_layer F n theta n_inc)).
Proof. destruct a as [x y]. intros [[-> E]|[[-> E]|[-> _]]]; [injection E as -> ->..|]; reflexivity. Qed.

Section Pipeline.
Context (S4 : sim -> R -> R * R -> C * C -> flux) (set_of : list mat -> list mat) (structure : list glayer)
  (size : (R * R) * (R * R)) (orders : nat) (wl : R) (incidence substrate : option mat) (theta phi : R)
  (user : option options) (d : options).
Let rat pol := snd (calculate_rat_rcwa S4 set_of structure size orders wl incidence substrate theta phi pol user d).
Let told := make_sim set_of structure size orders wl incidence substrate (use_options d user).
Let n := (length structure + 2)%nat.
Let k := front_n incidence wl / cosd theta.

(** Light of one polarisation: the reflected power is the backward power in front, the transmitted
    power the net power behind, and a layer absorbs what enters at its top and does not enter the
    layer below, if that is positive. *)
Theorem C157_single : forall pol a m r, wave pol a -> told = Ok m -> rat pol = Ok r -> 0 < front_n incidence wl ->
  let F := S4 m (1 / wl) (theta, phi) a in
  rw_R r = - k * Re (snd (F 1%nat 0)) /\ rw_T r = k * Phi F n /\
  exists A, rw_layers r = AOne A /\ length A = length structure /\
    (forall i, (i < length structure)%nat -> nth i A 0 = k * Rmax 0 (Phi F (i + 2) - Phi F (i + 3))) /\
    rw_A r = Num (total A) /\ rw_pol r = Num (total A).
Proof.
  intros pol a m r Hw Hm Hr Hn F. unfold rat, calculate_rat_rcwa in Hr. cbn [snd] in Hr. fold told in Hr.
  rewrite Hm in Hr. cbn [bindR] in Hr. rewrite (RCWA_wave _ _ _ _ _ _ _ _ _ Hw), n_inc_front, widths_length in Hr by exact Hn.
  cbv zeta in Hr. cbn [bindR] in Hr. fold F n in Hr.
  unfold collect_rat in Hr. cbn [fst snd] in Hr. injection Hr as <-. cbn [rw_R rw_T rw_layers rw_A rw_pol].
  split; [unfold rcwa_R, k; unfold Rdiv; ring|]. split; [apply rcwa_T_Phi|].
  eexists. split; [reflexivity|]. rewrite add_up_total. split; [|split; [|split; reflexivity]].
  - rewrite per_layer_length. unfold n. lia.
  - intros i Hi. apply per_layer_nth. unfold n. lia.
Qed.
(** Unpolarised light is the mean of both polarisations, in every layer; A_pol has the two totals. *)
Theorem C157_mean : forall m, told = Ok m ->
  exists u s p As Ap, rat (PStr "u") = Ok u /\ rat (PStr "s") = Ok s /\ rat (PStr "p") = Ok p /\
    rw_R u = (rw_R s + rw_R p) / 2 /\ rw_T u = (rw_T s + rw_T p) / 2 /\
    rw_layers s = AOne As /\ rw_layers p = AOne Ap /\
    rw_layers u = AOne (map (fun q => (fst q + snd q) / 2) (combine As Ap)) /\
    rw_A u = Num ((total As + total Ap) / 2) /\ rw_pol u = Row [total As; total Ap].
Proof.
  intros m Hm. unfold rat, calculate_rat_rcwa. cbn [snd]. fold told. rewrite Hm. cbn [bindR].
  do 5 eexists. repeat (split; [reflexivity|]).
  cbn [rw_layers rw_A rw_pol rw_R collect_rat snd fst String.eqb Ascii.eqb Bool.eqb].
  split; [unfold mean_rows, add_rows; now rewrite map_map|]. rewrite !add_up_total. split; [|reflexivity].
  f_equal. unfold mean_rows, add_rows. unfold vs_pol. cbn [snd].
  set (a := rcwa_absorption_per_layer _ _ _ _). set (b := rcwa_absorption_per_layer _ _ _ _).
  assert (HL : length a = length b) by (unfold a, b; now rewrite !per_layer_length).
  clearbody a b. revert b HL. induction a as [|x a IH]; intros [|y b] HL; try discriminate; cbn [combine map total fst snd]; [lra|].
  rewrite IH by (cbn in HL; lia). lra.
Qed.
(** Reflected, absorbed and transmitted light add up to all the light when no layer gives power
    back, and otherwise to more, because negative absorptances are cut off. *)
Theorem C157_balance : forall pol r, (pol = PStr "u" \/ exists a, wave pol a) -> rat pol = Ok r ->
  0 < front_n incidence wl -> 0 < cosd theta ->
  (forall m a, unit_wave a -> lit (S4 m (1 / wl) (theta, phi) a) theta (front_n incidence wl)) ->
  exists A, rw_layers r = AOne A /\ length A = length structure /\ Forall (fun x => 0 <= x) A /\
    rw_A r = Num (total A) /\ 1 <= rw_R r + total A + rw_T r /\
    ((forall m a, unit_wave a -> lossy (S4 m (1 / wl) (theta, phi) a) n) -> rw_R r + total A + rw_T r = 1).
Proof.
  intros pol r Hpol Hr Hn Hc HL.
  assert (K : 0 < k) by (unfold k; now apply Rdiv_lt_0_compat).
  assert (N : (2 <= n)%nat) by (unfold n; lia).
  destruct told as [m|e] eqn:Hm.
  2:{ unfold rat, calculate_rat_rcwa in Hr. cbn [snd] in Hr. fold told in Hr. rewrite Hm in Hr. discriminate. }
  destruct Hpol as [->|[a Hw]].
  - unfold rat, calculate_rat_rcwa in Hr. cbn [snd] in Hr. fold told in Hr. rewrite Hm in Hr. cbn [bindR] in Hr.
    cbn [RCWA_wl String.length Nat.eqb in_sp String.eqb Ascii.eqb Bool.eqb orb] in Hr.
    change (in_sp "u") with false in Hr. cbv iota in Hr.
    rewrite n_inc_front, widths_length in Hr by exact Hn. fold n in Hr. unfold vs_pol in Hr. cbn [fst snd bindR] in Hr.
    set (Fs := S4 m (1 / wl) (theta, phi) (RtoC 1, RtoC 0)) in Hr. set (Fp := S4 m (1 / wl) (theta, phi) (RtoC 0, RtoC 1)) in Hr.
    injection Hr as <-.
    cbn [rw_layers rw_A rw_R rw_T collect_rat snd fst String.eqb Ascii.eqb Bool.eqb].
    eexists. split; [reflexivity|]. rewrite add_up_total.
    set (a := rcwa_absorption_per_layer Fs _ _ _). set (b := rcwa_absorption_per_layer Fp _ _ _).
    assert (La : length a = length structure) by (unfold a; rewrite per_layer_length; unfold n; lia).
    assert (Lb : length b = length structure) by (unfold b; rewrite per_layer_length; unfold n; lia).
    split; [unfold mean_rows, add_rows; rewrite !map_length, combine_length; lia|].
    assert (Pa := per_layer_nonneg Fs n theta _ Hn Hc : Forall _ a). assert (Pb := per_layer_nonneg Fp n theta _ Hn Hc : Forall _ b).
    assert (Ea := energy Fs n theta _ N (HL m _ unit_s) Hn Hc). assert (Eb := energy Fp n theta _ N (HL m _ unit_p) Hn Hc).
    fold a in Ea. fold b in Eb. fold k in Ea, Eb.
    assert (T2 : total (mean_rows a b) = (total a + total b) / 2).
    { clear - La Lb. assert (HL : length a = length b) by lia. clear La Lb. unfold mean_rows, add_rows. clearbody a b.
      revert b HL. induction a as [|x a IH]; intros [|y b] HL; try discriminate; cbn [combine map total fst snd]; [lra|].
      rewrite IH by (cbn in HL; lia). lra. }
    split.
    { clear - Pa Pb. clearbody a b. unfold mean_rows, add_rows. revert b Pb. induction Pa as [|x a Hx Pa IH]; intros b Pb; cbn [combine map]; [constructor|].
      destruct Pb as [|y b Hy Pb]; cbn [map]; constructor; [cbn [fst snd]; lra|now apply IH]. }
    split; [reflexivity|]. rewrite T2. assert (Ga := gain_nonneg Fs n). assert (Gb := gain_nonneg Fp n). split.
    + nra.
    + intros HD. rewrite (gain_lossy Fs n) in Ea by (apply HD; apply unit_s).
      rewrite (gain_lossy Fp n) in Eb by (apply HD; apply unit_p). lra.
  - assert (Hu := wave_unit _ _ Hw).
    destruct (C157_single pol a m r Hw Hm Hr Hn) as (_ & _ & _).
    unfold rat, calculate_rat_rcwa in Hr. cbn [snd] in Hr. fold told in Hr. rewrite Hm in Hr. cbn [bindR] in Hr.
    rewrite (RCWA_wave _ _ _ _ _ _ _ _ _ Hw), n_inc_front, widths_length in Hr by exact Hn.
    cbv zeta in Hr. cbn [bindR] in Hr. fold n in Hr. set (F := S4 m (1 / wl) (theta, phi) a) in Hr.
    unfold collect_rat in Hr. cbn [fst snd] in Hr. injection Hr as <-. cbn [rw_R rw_T rw_layers rw_A].
    eexists. split; [reflexivity|]. rewrite add_up_total.
    split; [rewrite per_layer_length; unfold n; lia|]. split; [now apply per_layer_nonneg|]. split; [reflexivity|].
    assert (E := energy F n theta _ N (HL m _ Hu) Hn Hc). fold k in E. assert (G := gain_nonneg F n). split.
    + nra.
    + intros HD. rewrite (gain_lossy F n) in E by (apply HD; exact Hu). lra.
Qed.
(** Any other word for the polarisation is run as unpolarised light but its absorptances are not
    averaged: A has one entry for every layer, the sum of both polarisations. *)
Theorem C157_word_refuted : forall m p, told = Ok m -> in_sp p = false -> p <> "u"%string -> String.length p <> 2%nat ->
  exists r u As Ap, rat (PStr p) = Ok r /\ rat (PStr "u") = Ok u /\ rw_R r = rw_R u /\ rw_T r = rw_T u /\
    rw_pol u = Row [total As; total Ap] /\
    rw_layers r = ATwo As Ap /\ rw_A r = Row (map (fun q => fst q + snd q) (combine As Ap)) /\ rw_pol r = rw_A r.
Proof.
  intros m p Hm Hp Hu H2. unfold rat, calculate_rat_rcwa. cbn [snd]. fold told. rewrite Hm. cbn [bindR].
  unfold RCWA_wl at 1. destruct (Nat.eqb_spec (String.length p) 2) as [F|_]; [contradiction|]. rewrite Hp. cbn [bindR].
  do 4 eexists. split; [reflexivity|]. split; [reflexivity|]. unfold collect_rat. cbn [fst snd].
  destruct (String.eqb_spec p "u") as [F|_]; [contradiction|].
  cbn [rw_layers rw_A rw_pol rw_R rw_T String.eqb Ascii.eqb Bool.eqb]. rewrite !add_up_total.
  repeat (split; [reflexivity|]). reflexivity.
Qed.
End Pipeline.

(** ** The cell *)
Definition gmembers (o : gobj) : list glayer :=
  match o with GSingle l => [l] | GJunction ls | GTunnel ls => ls | GOther => [] end.
Definition glayers (c : gcell) : list glayer := concat (map (fun p => gmembers (snd p)) c).
Definition gpieces (c : gcell) (As : list (list R)) : Prop :=
  Forall2 (fun p a => length a = length (gmembers (snd p))) c As.
Lemma gcollect_spec : forall (c : gcell), Forall (fun p => snd p <> GOther) c ->
  gcollect (map snd c) = (glayers c, map (fun p => length (gmembers (snd p))) c).
Proof.
  intros c H. unfold gcollect.
  assert (G : forall acc, fold_left (fun acc o =>
    match o with
    | GSingle l => (fst acc ++ [l], snd acc ++ [1%nat])
    | GJunction ls | GTunnel ls => (fst acc ++ ls, snd acc ++ [length ls])
    | GOther => acc
    end) (map snd c) acc = (fst acc ++ glayers c, snd acc ++ map (fun p => length (gmembers (snd p))) c)).
  { induction c as [|[i o] c IH]; intros acc; cbn [map fold_left].
    - unfold glayers. cbn. rewrite !app_nil_r. now destruct acc.
    - rewrite IH by exact (Forall_inv_tail H). apply Forall_inv in H. cbn [snd] in H.
      unfold glayers. cbn [map concat snd].
      destruct o; try (now elim H); cbn [gmembers length fst snd]; rewrite <- !app_assoc; reflexivity. }
  exact (G ([], [])).
Qed.
Lemma gcut : forall (c : gcell) (l : list R), length l = length (glayers c) ->
  exists As, l = concat As /\ gpieces c As.
Proof.
  induction c as [|[i o] c IH]; intros l H.
  - exists []. split; [|constructor]. now apply length_zero_iff_nil.
  - unfold glayers in H. cbn [map concat snd] in H. rewrite app_length in H.
    destruct (IH (skipn (length (gmembers o)) l)) as (As & E & P).
    { rewrite skipn_length. unfold glayers. lia. }
    exists (firstn (length (gmembers o)) l :: As). split.
    + cbn [concat]. rewrite <- E. symmetry. apply firstn_skipn.
    + constructor; [|exact P]. cbn [snd]. apply firstn_length_le. lia.
Qed.
Lemma gshares initial : forall (c : gcell) As pre, gpieces c As ->
  shares initial (pre ++ concat As) (map (fun p => length (gmembers (snd p))) c) (length pre) (map (fun _ => OOther) c)
  = Ok (map (fun a => initial * total a) As).
Proof.
  intros c As pre P. revert pre. induction P as [|p a c As H P IH]; intros pre; [reflexivity|].
  cbn [map shares concat].
  specialize (IH (pre ++ a)). rewrite app_length, H in IH. rewrite <- (app_assoc pre a) in IH. rewrite IH. cbn [bindR].
  rewrite skipn_app, skipn_all, Nat.sub_diag. cbn [app skipn].
  rewrite <- H, firstn_app, firstn_all, Nat.sub_diag. cbn [firstn]. rewrite app_nil_r, add_up_total. reflexivity.
Qed.
(** The light that is not in the shade is reflected, absorbed in the elements or transmitted.
    Every element is given the sum over its own layers, in order. *)
Theorem C157_cell : forall S4 set_of shading (c : gcell) size orders wl incidence substrate theta phi pol user d d' r,
  Forall (fun p => snd p <> GOther) c -> NoDup (map fst c) ->
  (pol = PStr "u" \/ exists a, wave pol a) ->
  calculate_rat_rcwa S4 set_of (glayers c) size orders (wl * 10 ^ 9) incidence substrate theta phi pol user d = (d', Ok r) ->
  exists x, snd (solve_rcwa S4 set_of shading c size orders wl incidence substrate theta phi pol user d) = Ok x /\
  op_refl x + op_abs x + op_trans x = 1 - shading /\ op_refl x = (1 - shading) * rw_R r /\
  exists A As, rw_layers r = AOne A /\ A = concat As /\ gpieces c As /\
    op_layers x = map (fun a => (1 - shading) * total a) As /\ op_abs x = (1 - shading) * total A /\
    (rw_R r + total A + rw_T r = 1 -> op_trans x = (1 - shading) * rw_T r).
Proof.
  intros S4 set_of shading c size orders wl incidence substrate theta phi pol user d d' r HO ND Hpol Hr.
  assert (HA : exists A, rw_layers r = AOne A /\ length A = length (glayers c)).
  { apply (f_equal snd) in Hr. unfold calculate_rat_rcwa in Hr. cbn [snd] in Hr.
    destruct (make_sim set_of (glayers c) size orders (wl * 10 ^ 9) incidence substrate (use_options d user)) as [m|e];
      [|discriminate]. cbn [bindR] in Hr.
    rewrite widths_length in Hr.
    destruct Hpol as [->|[a Hw]].
    - cbn [RCWA_wl String.length Nat.eqb] in Hr. change (in_sp "u") with false in Hr. cbv iota in Hr. cbn [bindR] in Hr.
      injection Hr as <-. eexists. split; [reflexivity|]. unfold mean_rows, add_rows. rewrite !map_length, combine_length. unfold vs_pol. cbn [snd].
      rewrite !per_layer_length. lia.
    - rewrite (RCWA_wave _ _ _ _ _ _ _ _ _ Hw) in Hr. cbv zeta in Hr. cbn [bindR] in Hr. unfold collect_rat in Hr.
      cbn [fst snd] in Hr. injection Hr as <-. eexists. split; [reflexivity|]. rewrite per_layer_length. lia. }
  destruct HA as (A & EA & LA). destruct (gcut c A LA) as (As & EC & P).
  unfold solve_rcwa. rewrite (gcollect_spec c HO). cbn [fst snd]. rewrite Hr. cbn [fst snd bindR].
  rewrite EA. subst A.
  assert (G := gshares (1 - shading) c As [] P). cbn [app length] in G. rewrite G. cbn [bindR].
  assert (LL : length As = length c) by (clear - P; induction P; cbn; lia).
  rewrite stored_distinct by (exact ND || now rewrite !map_length, LL).
  eexists. split; [reflexivity|]. cbn [op_refl op_abs op_trans op_layers].
  rewrite add_up_total, total_map_scale. split; [ring|]. split; [ring|].
  exists (concat As), As. repeat (split; [reflexivity || exact P|]). intros E.
  replace (rw_T r) with (1 - rw_R r - total (concat As)) by lra. ring.
Qed.

(** ** The profile *)
Lemma find_depth_spec : forall ws j i z, Forall (fun w => 0 <= w) ws -> (i < length ws)%nat ->
  total (firstn i ws) <= z < total (firstn (S i) ws) -> find_depth j ws z = ((j + i)%nat, z - total (firstn i ws)).
Proof.
  induction ws as [|w ws IH]; intros j i z HF Hi Hz; [cbn in Hi; lia|]. cbn [find_depth].
  assert (Hw := Forall_inv HF). apply Forall_inv_tail in HF.
  destruct i as [|i]; cbn [firstn total] in Hz |- *.
  - destruct (Rlt_dec z w); [|lra]. f_equal; [lia|lra].
  - assert (0 <= total (firstn i ws)).
    { apply total_nonneg'. apply Forall_forall. intros x Hx. rewrite Forall_forall in HF. apply HF.
      rewrite <- (firstn_skipn i ws). apply in_or_app. now left. }
    destruct (Rlt_dec z w); [lra|]. rewrite (IH (S j) i (z - w)); [f_equal; [lia|lra]|exact HF|cbn in Hi; lia|].
    cbn [firstn total]. lra.
Qed.
(** At a depth inside layer i+1 of the stack the profile is, for light of one polarisation that is
    absorbed at all, the slope of the power flow in that layer within a billionth of a nm of the depth;
    it is zero for light that is not absorbed. *)
Theorem C157_profile : forall S4 m ws wl theta phi n_inc pol a A i z (D : R -> R),
  wave pol a -> Forall (fun w => 0 <= w) ws -> (i < length ws)%nat ->
  total (firstn i ws) <= z < total (firstn (S i) ws) -> 0 < cosd theta ->
  let F := S4 m (1 / wl) (theta, phi) a in
  (forall y, is_derive (fun u => Re (net F (i + 2) u)) y (D y)) ->
  (A <= 0 -> RCWA_wl_prof S4 m ws wl theta phi n_inc pol (Num A) z = Ok 0) /\
  (0 < A -> exists y, Rabs (y - (z - total (firstn i ws))) <= / 10 ^ 9 /\
     RCWA_wl_prof S4 m ws wl theta phi n_inc pol (Num A) z = Ok (n_inc / cosd theta * - D y)).
Proof.
  intros S4 m ws wl theta phi n_inc pol a A i z D Hw HF Hi Hz Hc F HD.
  assert (E : RCWA_wl_prof S4 m ws wl theta phi n_inc pol (Num A) z =
     Ok (rcwa_position_resolved F (i + 2) (z - total (firstn i ws)) A theta n_inc)).
  { assert (P : RCWA_wl_prof S4 m ws wl theta phi n_inc pol (Num A) z = Ok (vs_pol_prof S4 m ws wl theta phi n_inc z a A)).
    { destruct a as [x y]. destruct Hw as [[-> Ea]|[[-> Ea]|[-> _]]]; [injection Ea as -> ->..|]; reflexivity. }
    rewrite P. unfold vs_pol_prof, find_layer.
    assert (0 <= total (firstn i ws)).
    { apply total_nonneg'. apply Forall_forall. intros x Hx. rewrite Forall_forall in HF. apply HF.
      rewrite <- (firstn_skipn i ws). apply in_or_app. now left. }
    destruct (Rlt_dec z 0); [lra|]. rewrite (find_depth_spec ws 1 i z HF Hi Hz). cbn [fst snd].
    now replace (1 + i + 1)%nat with (i + 2)%nat by lia. }
  rewrite E. unfold rcwa_position_resolved. set (t := z - total (firstn i ws)). split; intros HA.
  - destruct (Rlt_dec 0 A); [lra|reflexivity].
  - destruct (Rlt_dec 0 A); [|lra]. set (h := / 10 ^ 9).
    assert (Ph : 0 < h) by (unfold h; apply Rinv_0_lt_compat; lra). clearbody h.
    destruct (MVT_gen (fun u => Re (net F (i + 2) u)) (t - h) (t + h) D) as (y & Hy & Ey).
    + intros y _. apply HD.
    + intros y _. apply continuity_pt_filterlim. apply (@ex_derive_continuous R_AbsRing R_NormedModule). exists (D y). apply HD.
    + rewrite Rmin_left, Rmax_right in Hy by lra. exists y. split; [apply Rabs_le; lra|]. f_equal.
      rewrite Re_minus. set (u := Re (net F (i + 2) (t - h))) in *. set (v := Re (net F (i + 2) (t + h))) in *.
      cbv beta in Ey. fold u v in Ey. clearbody u v. replace (u - v) with (- (D y * (t + h - (t - h)))) by lra. field. lra.
Qed.

(** * C158: options *)
(** All assignments of a session in order, and the value of the last one. *)
Definition assignments (h : list (option options)) : options :=
  concat (map (fun u => match u with Some l => l | None => [] end) h).
Definition last_value (k : string) (l : options) : option string :=
  option_map snd (find (fun p => String.eqb (fst p) k) (rev l)).
(** The defaults of the documentation. *)
Definition documented (k : string) : string :=
  (if String.eqb k "LatticeTruncation" then "Circular"
   else if String.eqb k "DiscretizationResolution" then "8"
   else if String.eqb k "PolarizationBasis" then "Default" else "False")%string.
Lemma find_snoc {X} (f : X -> bool) l x : find f (l ++ [x]) = match find f l with Some y => Some y | None => if f x then Some x else None end.
Proof. induction l as [|y l IH]; cbn [app find]; [reflexivity|]. now destruct (f y). Qed.
Lemma update_lookup k : forall u d,
  ParamModel.lookup (update d u) k = match last_value k u with Some v => Some v | None => ParamModel.lookup d k end.
Proof.
  unfold update, last_value. induction u as [|[k' v] u IH]; intros d; [reflexivity|]. cbn [fold_left rev fst snd].
  rewrite IH, find_snoc. destruct (find (fun p => String.eqb (fst p) k) (rev u)); [reflexivity|]. cbn [option_map fst].
  rewrite lookup_dset. now destruct (String.eqb k' k).
Qed.
Lemma last_value_app k a b : last_value k (a ++ b) = match last_value k b with Some v => Some v | None => last_value k a end.
Proof.
  unfold last_value. rewrite rev_app_distr. induction (rev b) as [|p l IH]; [reflexivity|]. cbn [app find].
  destruct (String.eqb (fst p) k); [reflexivity|exact IH].
Qed.
Lemma after_lookup k : forall h d, ParamModel.lookup (fold_left use_options h d) k =
  match last_value k (assignments h) with Some v => Some v | None => ParamModel.lookup d k end.
Proof.
  induction h as [|u h IH]; intros d; [reflexivity|]. cbn [fold_left]. rewrite IH. unfold assignments. cbn [map concat].
  rewrite last_value_app. fold (assignments h). destruct (last_value k (assignments h)); [reflexivity|].
  destruct u as [u|]; [cbn [use_options]; apply update_lookup|reflexivity].
Qed.
Lemma set_options_ok d (g : string -> string) : (forall k, In k option_names -> ParamModel.lookup d k = Some (g k)) ->
  set_options d = Ok (map (fun k => (k, g k)) option_names).
Proof.
  unfold set_options. induction option_names as [|k l IH]; intros H; [reflexivity|]. cbn [mapRR map].
  unfold get_option at 1. rewrite (H k) by now left. cbn [bindR]. rewrite IH by (intros k' Hk; apply H; now right). reflexivity.
Qed.
(** The options that S4 has. *)
Definition s4_options : list string :=
  ["LatticeTruncation"; "DiscretizedEpsilon"; "DiscretizationResolution"; "PolarizationDecomposition";
   "PolarizationBasis"; "LanczosSmoothing"; "SubpixelSmoothing"; "ConserveMemory"; "WeismannFormulation"]%string.
(** After any session, S4 is given for each of its nine options the value of the last assignment
    in the whole session, this call included, and the documented default if there is none. *)
Theorem C158_options : forall (h : list (option options)) (user : option options),
  set_options (use_options (after h) user) =
  Ok (map (fun k => (k, match last_value k (assignments (h ++ [user])) with Some v => v | None => documented k end)) s4_options).
Proof.
  intros h user. change s4_options with option_names. apply set_options_ok. intros k Hk.
  change (use_options (after h) user) with (fold_left use_options [user] (after h)). unfold after.
  rewrite <- fold_left_app, after_lookup. destruct (last_value k (assignments (h ++ [user]))); [reflexivity|].
  cbn in Hk. repeat (destruct Hk as [<-|Hk]; [reflexivity|]). contradiction.
Qed.
(** So a call gets its own options over the defaults if no call before it has set an option. *)
Theorem C158_fresh_partial : forall (h : list (option options)) (user : option options), (forall u : options, In (Some u) h -> u = []) ->
  set_options (use_options (after h) user) = set_options (use_options DEFAULT_OPTIONS user).
Proof.
  intros h user H. rewrite C158_options. change DEFAULT_OPTIONS with (after []). rewrite C158_options.
  assert (E : assignments (h ++ [user]) = assignments ([] ++ [user])); [|now rewrite E].
  unfold assignments. rewrite map_app, concat_app. cbn [app].
  match goal with |- ?l ++ ?x = _ => change (l ++ x = [] ++ x) end. f_equal.
  induction h as [|[u|] h IH]; [reflexivity| |]; cbn [map concat].
  - rewrite (H u) by now left. cbn [app]. apply IH. intros v Hv. apply H. now right.
  - apply IH. intros v Hv. apply H. now right.
Qed.
(** Otherwise the options of one call are still in force in the next, so the same call with the same
    arguments can have two results in one session. *)
Definition leaky (m : sim) (f : R) (angles : R * R) (a : C * C) : flux :=
  fun _ _ => if existsb (fun p => String.eqb (fst p) "LanczosSmoothing" && String.eqb (snd p) "True") (sm_options m)
             then (RtoC 0, RtoC (-1)) else (RtoC 0, RtoC 0).
Theorem C158_leak_refuted : exists S4 set_of structure size orders wl theta phi pol u,
  let call user d := calculate_rat_rcwa S4 set_of structure size orders wl None None theta phi pol user d in
  let d1 := fst (call (Some u) DEFAULT_OPTIONS) in
  set_options d1 <> set_options DEFAULT_OPTIONS /\
  exists r r', snd (call None DEFAULT_OPTIONS) = Ok r /\ snd (call None d1) = Ok r' /\ rw_R r <> rw_R r'.
Proof.
  exists leaky, (fun l => l), [], ((1, 0), (0, 1)), 4%nat, 500, 0, 0, (PStr "s"), [("LanczosSmoothing", "True")]%string.
  cbv zeta. cbn [calculate_rat_rcwa fst snd use_options]. split; [vm_compute; congruence|].
  do 2 eexists. split; [reflexivity|]. split; [reflexivity|].
  cbn [rw_R collect_rat fst snd vs_pol]. unfold vs_pol, rcwa_R. cbn [fst snd].
  assert (N : n_inc_of (layers_oc [] None None 500) = 1) by (rewrite (n_inc_front [] None None 500); cbn; lra).
  rewrite N.
  assert (Cz : cosd 0 = 1) by (unfold cosd; replace (0 * PI / 180) with 0 by field; exact cos_0).
  rewrite Cz. unfold leaky. cbn. lra.
Qed.
(** An option that S4 does not have is kept and never handed over. *)
Theorem C158_unknown : forall (h : list (option options)) (u : options) k v, ~ In k s4_options ->
  set_options (use_options (after h) (Some (u ++ [(k, v)]))) = set_options (use_options (after h) (Some u)).
Proof.
  intros h u k v Hk. rewrite !C158_options. f_equal. apply map_ext_in. intros k' Hk'. f_equal.
  match goal with |- match ?a with Some x => x | None => _ end = match ?b with Some y => y | None => _ end =>
    enough (E : a = b) by (rewrite E; reflexivity) end.
  unfold assignments. rewrite !map_app, !concat_app. cbn [map concat]. rewrite !app_nil_r, !last_value_app.
  destruct (String.eqb_spec k k') as [->|N]; [contradiction|].
  unfold last_value at 1. cbn [rev app find fst]. apply String.eqb_neq in N. rewrite N. reflexivity.
Qed.
Example C158_example : let h := [None; Some [("LanczosSmoothing", "True"); ("Colour", "red")]; None]%string in
  last_value "LanczosSmoothing" (assignments (h ++ [Some []])) = Some "True"%string /\
  last_value "ConserveMemory" (assignments (h ++ [Some []])) = None /\ ~ In "Colour"%string s4_options /\
  (forall u, In (Some u) [None; Some []; None : option options] -> u = []).
Proof.
  cbv zeta. repeat (split; [reflexivity|]). split.
  - cbn. intuition discriminate.
  - intros u [E|[E|[E|[]]]]; congruence.
Qed.

(** * C159: what S4 is told *)
Definition name_eqb (a b : name) : bool :=
  match a, b with NLayer i, NLayer j => Nat.eqb i j | NShape i, NShape j => Nat.eqb i j | _, _ => false end.
(** The dielectric constant that goes with a name. *)
Definition constant (m : sim) (x : name) : option C :=
  option_map snd (find (fun p => name_eqb (fst p) x) (sm_materials m)).
(** The regions, with the dielectric constant in place of the name of the material. *)
Definition resolved (m : sim) : list (name * option C * string * list R) :=
  map (fun r => let '(l, x, t, p) := r in (l, constant m x, t, p)) (sm_regions m).
(** The list of a set: all the objects, each one once, in some order. *)
Definition lists_set (set_of : list mat -> list mat) (structure : list glayer) : Prop :=
  let l := concat (map (fun p => map sh_mat (gl_geometry p)) structure) in
  NoDup (set_of l) /\ (forall x, In x (set_of l) <-> In x l).
(** What the regions should be: the shapes of layer [j], in the simulation number j + 2 (the
    first is the medium in front), with the constants of their own materials. *)
Definition wanted (structure : list glayer) (wl : R) : list (name * option C * string * list R) :=
  concat (map (fun p => map (fun s => (NLayer (fst p), Some (eps (sh_mat s) wl), sh_type s, sh_rest s))
                          (filter (fun s => known_shape (sh_type s)) (gl_geometry (snd p))))
              (combine (seq 2 (length structure)) structure)).
Lemma find_numbered_shape (l : list C) (rest : list (name * C)) : forall a i,
  find (fun p => name_eqb (fst p) (NShape (a + i))) (map (fun p => (NShape (fst p), snd p)) (combine (seq a (length l)) l) ++ rest)
  = match nth_error l i with
    | Some c => Some (NShape (a + i), c)
    | None => find (fun p => name_eqb (fst p) (NShape (a + i))) rest
    end.
Proof.
  induction l as [|c l IH]; intros a i; [now destruct i|]. cbn [length seq combine map app find fst snd name_eqb].
  destruct i as [|i].
  - rewrite Nat.add_0_r, Nat.eqb_refl. reflexivity.
  - destruct (Nat.eqb_spec a (a + S i)); [lia|]. cbn [nth_error]. replace (a + S i)%nat with (S a + i)%nat by lia. apply IH.
Qed.
Lemma find_numbered_layer (l : list C) : forall a i,
  find (fun p => name_eqb (fst p) (NLayer (a + i))) (map (fun p => (NLayer (fst p), snd p)) (combine (seq a (length l)) l))
  = match nth_error l i with Some c => Some (NLayer (a + i), c) | None => None end.
Proof.
  induction l as [|c l IH]; intros a i; [now destruct i|]. cbn [length seq combine map find fst snd name_eqb].
  destruct i as [|i].
  - rewrite Nat.add_0_r, Nat.eqb_refl. reflexivity.
  - destruct (Nat.eqb_spec a (a + S i)); [lia|]. cbn [nth_error]. replace (a + S i)%nat with (S a + i)%nat by lia. apply IH.
Qed.
Lemma find_skip_shapes (l : list (nat * C)) (rest : list (name * C)) i :
  find (fun p => name_eqb (fst p) (NLayer i)) (map (fun p => (NShape (fst p), snd p)) l ++ rest)
  = find (fun p => name_eqb (fst p) (NLayer i)) rest.
Proof. induction l as [|c l IH]; [reflexivity|exact IH]. Qed.
Lemma index_of_str_spec : forall l s, In s l ->
  exists i, index_of_str l s = Ok i /\ nth_error l i = Some s /\ forall j, (j < i)%nat -> nth_error l j <> Some s.
Proof.
  induction l as [|x l IH]; intros s H; [contradiction|]. cbn [index_of_str]. destruct (String.eqb_spec x s) as [->|N].
  - exists 0%nat. repeat split. intros j Hj. lia.
  - destruct H as [->|H]; [contradiction|]. destruct (IH s H) as (i & -> & E & F). cbn [bindR]. exists (S i).
    repeat split; [exact E|]. intros [|j] Hj; cbn; [congruence|]. apply F. lia.
Qed.
(** The materials of the shapes all get a number. *)
Definition numbers (mats : list mat) (g : list shape) (layer : name) : list (name * name * string * list R) -> Prop :=
  fun rs => exists is_, Forall2 (fun s i => exists m, nth_error mats i = Some m /\ mat_str m = mat_str (sh_mat s) /\
      (forall j m', (j < i)%nat -> nth_error mats j = Some m' -> mat_str m' <> mat_str (sh_mat s))) g is_ /\
    rs = concat (map (fun p => if known_shape (sh_type (fst p)) then [(layer, NShape (snd p + 1), sh_type (fst p), sh_rest (fst p))] else [])
                 (combine g is_)).
Lemma regions_spec mats layer : forall g, (forall s, In s g -> In (sh_mat s) mats) ->
  exists rs, regions (map mat_str mats) layer (map (fun s => (sh_type s, mat_str (sh_mat s), sh_rest s)) g) = Ok rs /\
    numbers mats g layer rs.
Proof.
  induction g as [|s g IH]; intros H; cbn [map regions].
  - exists []. split; [reflexivity|]. exists []. split; constructor.
  - destruct IH as (rs & -> & is_ & F & ->); [intros s' Hs'; apply H; now right|].
    destruct (index_of_str_spec (map mat_str mats) (mat_str (sh_mat s))) as (i & -> & E & Fj).
    { apply in_map. apply H. now left. }
    cbn [bindR]. eexists. split; [reflexivity|]. exists (i :: is_). split.
    + constructor; [|exact F]. rewrite nth_error_map in E. destruct (nth_error mats i) as [m|] eqn:Em; [|discriminate].
      cbn [option_map] in E. assert (E' : mat_str m = mat_str (sh_mat s)) by congruence. clear E. rename E' into E. exists m. split; [reflexivity|]. split; [exact E|].
      intros j m' Hj Hm'. specialize (Fj j Hj). rewrite nth_error_map, Hm' in Fj. cbn [option_map] in Fj. congruence.
    + cbn [combine map concat fst snd]. destruct (known_shape (sh_type s)); reflexivity.
Qed.
Lemma all_mats_structure structure : all_mats (geom_list structure) = concat (map (fun p => map sh_mat (gl_geometry p)) structure).
Proof.
  unfold all_mats, geom_list. cbn [map concat app]. rewrite map_app, concat_app, map_map. cbn [map concat]. now rewrite !app_nil_r.
Qed.
Lemma sim_regions set_of structure size orders wl incidence substrate d o : lists_set set_of structure -> set_options d = Ok o ->
  let mats := set_of (all_mats (geom_list structure)) in
  exists m rss, make_sim set_of structure size orders wl incidence substrate d = Ok m /\
    sm_options m = o /\ sm_size m = size /\ sm_orders m = orders /\
    sm_materials m = map (fun p => (NShape (fst p), snd p)) (numbered (map (fun x => eps x wl) mats)) ++
      map (fun p => (NLayer (fst p), snd p)) (numbered (layers_oc structure incidence substrate wl)) /\
    sm_layers m = map (fun p => (NLayer (fst p), match snd p with None => 0 | Some w => w end, NLayer (fst p))) (numbered (rcwa_widths structure)) /\
    Forall2 (fun p rs => numbers mats (snd p) (NLayer (fst p)) rs) (numbered (geom_list structure)) rss /\
    sm_regions m = concat rss.
Proof.
  intros HS Ho mats. unfold lists_set in HS. rewrite <- all_mats_structure in HS. cbv zeta in HS. fold mats in HS. unfold make_sim, initialise_S, necessary_materials. cbn [fst snd]. rewrite Ho. cbn [bindR]. fold mats.
  assert (G : forall g a, (forall s, In s (concat g) -> In (sh_mat s) mats) -> exists rss,
    mapRR (fun p => regions (map mat_str mats) (NLayer (fst p)) (snd p)) (combine (seq a (length (named g))) (named g)) = Ok rss /\
    Forall2 (fun p rs => numbers mats (snd p) (NLayer (fst p)) rs) (combine (seq a (length g)) g) rss).
  { induction g as [|x g IH]; intros a H; [exists []; split; [reflexivity|constructor]|].
    cbn [named map length seq combine mapRR fst snd].
    destruct (regions_spec mats (NLayer a) x) as (rs & -> & Hrs).
    { intros s Hs. apply H. cbn [concat]. apply in_or_app. now left. }
    cbn [bindR]. destruct (IH (S a)) as (rss & E & F).
    { intros s Hs. apply H. cbn [concat]. apply in_or_app. now right. }
    unfold named in E. rewrite E. cbn [bindR]. eexists. split; [reflexivity|]. constructor; assumption. }
  destruct (G (geom_list structure) 1%nat) as (rss & E & F).
  { intros s Hs. apply HS. unfold all_mats. apply in_concat in Hs. destruct Hs as (x & Hx & Hs).
    apply in_concat. exists (map sh_mat x). split; now apply in_map. }
  unfold numbered at 1. rewrite E. cbn [bindR]. do 2 eexists. split; [reflexivity|].
  cbn [sm_options sm_size sm_orders sm_materials sm_layers sm_regions]. repeat (split; [reflexivity|]). split; [exact F|reflexivity].
Qed.
Lemma shape_constant m (mats : list mat) wl rest i x :
  sm_materials m = map (fun p => (NShape (fst p), snd p)) (numbered (map (fun x => eps x wl) mats)) ++ rest ->
  nth_error mats i = Some x -> constant m (NShape (i + 1)) = Some (eps x wl).
Proof.
  intros E H. unfold constant. rewrite E. unfold numbered. replace (i + 1)%nat with (1 + i)%nat by lia.
  rewrite find_numbered_shape, nth_error_map, H. reflexivity.
Qed.
Lemma resolve_layer m mats wl rest layer g rs :
  sm_materials m = map (fun p => (NShape (fst p), snd p)) (numbered (map (fun x => eps x wl) mats)) ++ rest ->
  (forall a b, In a mats -> In b (map sh_mat g) -> mat_str a = mat_str b -> a = b) ->
  numbers mats g layer rs ->
  map (fun r => let '(l, x, t, p) := r in (l, constant m x, t, p)) rs =
  map (fun s => (layer, Some (eps (sh_mat s) wl), sh_type s, sh_rest s)) (filter (fun s => known_shape (sh_type s)) g).
Proof.
  intros E H (is_ & F & ->). revert H. induction F as [|s i g is_ (x & Hx & Ex & _) F IH]; intros H; [reflexivity|].
  cbn [combine map concat fst snd filter].
  assert (x = sh_mat s).
  { apply H; [now apply nth_error_In in Hx|now left|exact Ex]. } subst x.
  destruct (known_shape (sh_type s)).
  - cbn [app map]. rewrite (shape_constant m mats wl rest i _ E Hx). f_equal. apply IH. intros a b Ha Hb. apply H; [exact Ha|now right].
  - apply IH. intros a b Ha Hb. apply H; [exact Ha|now right].
Qed.
(** Shapes made of materials that print differently are given to S4 in the layer that has them and
    with the constants of their own material, whatever the order of the set. *)
Theorem C159_shapes_partial : forall set_of structure size orders wl incidence substrate h user,
  lists_set set_of structure ->
  (forall a b, In a (all_mats (geom_list structure)) -> In b (all_mats (geom_list structure)) -> mat_str a = mat_str b -> a = b) ->
  exists m, make_sim set_of structure size orders wl incidence substrate (use_options (after h) user) = Ok m /\
    resolved m = wanted structure wl.
Proof.
  intros set_of structure size orders wl incidence substrate h user HS HD.
  destruct (sim_regions set_of structure size orders wl incidence substrate _ _ HS (C158_options h user))
    as (m & rss & Em & _ & _ & _ & EM & _ & F & ER).
  exists m. split; [exact Em|]. unfold resolved. rewrite ER, concat_map. unfold wanted.
  set (mats := set_of (all_mats (geom_list structure))) in *.
  set (w := fun p : nat * list shape => map (fun s => (NLayer (fst p), Some (eps (sh_mat s) wl), sh_type s, sh_rest s))
                          (filter (fun s => known_shape (sh_type s)) (snd p))).
  assert (G : map (map (fun r => let '(l, x, t, p) := r in (l, constant m x, t, p))) rss = map w (numbered (geom_list structure))).
  { assert (Sub : forall p, In p (numbered (geom_list structure)) -> forall b, In b (map sh_mat (snd p)) -> In b (all_mats (geom_list structure))).
    { intros [j x] Hp b Hb. apply in_combine_r in Hp. unfold all_mats. apply in_concat. exists (map sh_mat x).
      split; [now apply in_map|exact Hb]. }
    revert Sub F. generalize (numbered (geom_list structure)) as l. clear ER.
    induction rss as [|rs rss IH]; intros l Sub F; inversion F; subst; [reflexivity|]. cbn [map]. f_equal.
    - apply (resolve_layer m mats wl _ _ _ _ EM); [|assumption]. intros a b Ha Hb. apply HD; [|].
      { unfold lists_set in HS. rewrite <- all_mats_structure in HS. now apply HS. }
      apply (Sub x); [now left|exact Hb].
    - apply IH; [|assumption]. intros p Hp. apply Sub. now right. }
  rewrite G. unfold geom_list, numbered. cbn [length]. rewrite app_length, map_length. cbn [length].
  change (seq 1 (S (length structure + 1))) with (1%nat :: seq 2 (length structure + 1)).
  set (body := map gl_geometry structure ++ [[]]). set (ns := seq 2 (length structure + 1)).
  cbn [combine map concat]. change (w (1%nat, [])) with (@nil (name * option C * string * list R)). cbn [app]. unfold body, ns.
  assert (K : forall ls a, concat (map w (combine (seq a (length ls + 1)) (map gl_geometry ls ++ [[]]))) =
    concat (map (fun p => map (fun s => (NLayer (fst p), Some (eps (sh_mat s) wl), sh_type s, sh_rest s))
                          (filter (fun s => known_shape (sh_type s)) (gl_geometry (snd p)))) (combine (seq a (length ls)) ls))).
  { induction ls as [|l ls IH]; intros a; [reflexivity|]. cbn [length Nat.add seq map app combine concat fst snd].
    rewrite <- IH. reflexivity. }
  exact (K structure 2%nat).
Qed.
(** The constant of a material is the square of n + ik, so its parts are n^2 - k^2 and 2nk, n and k
    at the wavelength in metres. *)
Theorem C159_constants : forall m wl, let n := m_n m (wl / 10 ^ 9)%R in let k := m_k m (wl / 10 ^ 9)%R in
  fst (eps m wl) = (n ^ 2 - k ^ 2)%R /\ snd (eps m wl) = (2 * n * k)%R.
Proof. intros m wl n k. unfold eps, Cmult, Cplus, RtoC, Ci. fold n k. cbn [fst snd]. split; ring. Qed.
(** The layers: numbered from 1, the outer media of no width, widths in nm, each with the constants
    of its own material; only the real index of the medium in front counts. *)
Theorem C159_layers : forall set_of structure size orders wl incidence substrate h user, lists_set set_of structure ->
  exists m, make_sim set_of structure size orders wl incidence substrate (use_options (after h) user) = Ok m /\
    sm_size m = size /\ sm_orders m = orders /\
    length (sm_layers m) = (length structure + 2)%nat /\
    nth_error (sm_layers m) 0 = Some (NLayer 1, 0, NLayer 1) /\
    constant m (NLayer 1) = Some (RtoC (front_n incidence wl ^ 2)) /\
    (forall i l, nth_error structure i = Some l ->
       nth_error (sm_layers m) (i + 1) = Some (NLayer (i + 2), gl_width l * 10 ^ 9, NLayer (i + 2)) /\
       constant m (NLayer (i + 2)) = Some (eps (gl_mat l) wl)) /\
    (let n := (length structure + 2)%nat in nth_error (sm_layers m) (n - 1) = Some (NLayer n, 0, NLayer n) /\
       constant m (NLayer n) = Some (match substrate with None => RtoC 1 | Some b => eps b wl end)).
Proof.
  intros set_of structure size orders wl incidence substrate h user HS.
  destruct (sim_regions set_of structure size orders wl incidence substrate _ _ HS (C158_options h user))
    as (m & rss & Em & _ & E1 & E2 & EM & EL & _).
  exists m. split; [exact Em|]. split; [exact E1|]. split; [exact E2|].
  assert (Con : forall i, constant m (NLayer (1 + i)) = nth_error (layers_oc structure incidence substrate wl) i).
  { intros i. unfold constant. rewrite EM, find_skip_shapes. unfold numbered. rewrite find_numbered_layer.
    destruct (nth_error (layers_oc structure incidence substrate wl) i); reflexivity. }
  assert (Lay_ : forall i, nth_error (sm_layers m) i = option_map (fun w => (NLayer (1 + i), match w with None => 0 | Some x => x end, NLayer (1 + i)))
      (nth_error (rcwa_widths structure) i)).
  { intros i. rewrite EL. unfold numbered.
    assert (G : forall (l : list (option R)) a j, nth_error (map (fun p : nat * option R => (NLayer (fst p), match snd p with None => 0 | Some w => w end, NLayer (fst p)))
        (combine (seq a (length l)) l)) j = option_map (fun w => (NLayer (a + j), match w with None => 0 | Some x => x end, NLayer (a + j))) (nth_error l j)).
    { induction l as [|x l IH]; intros a j; [now destruct j|]. cbn [length seq combine map]. destruct j as [|j].
      - cbn [nth_error option_map fst snd]. now rewrite Nat.add_0_r.
      - cbn [nth_error]. rewrite IH. now replace (S a + j)%nat with (a + S j)%nat by lia. }
    apply G. }
  split; [rewrite EL; unfold numbered; rewrite map_length, combine_length, seq_length, widths_length; lia|].
  split; [apply (Lay_ 0%nat)|]. split.
  { change (NLayer 1) with (NLayer (1 + 0)). rewrite Con. cbn [layers_oc nth_error]. destruct incidence as [b|]; cbn [front_n]; [reflexivity|].
    f_equal. f_equal. ring. }
  split.
  - intros i l Hl. assert (Hi : (i < length structure)%nat) by (apply nth_error_Some; congruence). split.
    + rewrite Lay_. unfold rcwa_widths. replace (i + 1)%nat with (S i) by lia. cbn [nth_error].
      rewrite nth_error_app1 by (now rewrite map_length). rewrite nth_error_map, Hl. cbn [option_map].
      now replace (1 + S i)%nat with (i + 2)%nat by lia.
    + replace (i + 2)%nat with (1 + S i)%nat by lia. rewrite Con. unfold layers_oc. cbn [nth_error].
      rewrite nth_error_app1 by (now rewrite map_length). rewrite nth_error_map, Hl. reflexivity.
  - cbv zeta. replace (length structure + 2)%nat with (1 + S (length structure))%nat by lia. split.
    + replace (1 + S (length structure) - 1)%nat with (S (length structure)) by lia. rewrite Lay_. unfold rcwa_widths. cbn [nth_error].
      rewrite nth_error_app2 by (rewrite map_length; lia). rewrite map_length, Nat.sub_diag. reflexivity.
    + rewrite Con. unfold layers_oc. cbn [nth_error].
      rewrite nth_error_app2 by (rewrite map_length; lia). rewrite map_length, Nat.sub_diag. reflexivity.
Qed.
(** Two materials that differ in temperature only print the same, and then one of them is given the
    constants of the other, whatever the order of the set. *)
Definition GaAs_at (i : nat) (T index : R) : mat := Mat i "GaAs" [] T (fun _ => index) (fun _ => 0).
Definition two_shapes : list glayer :=
  [GLayer (/ 10 ^ 7) (GaAs_at 2 300 3) [Shape "circle" (GaAs_at 0 300 3) [100]; Shape "rectangle" (GaAs_at 1 400 4) [50; 50]]].
Theorem C159_temperature_refuted : forall set_of size orders wl incidence substrate h user, lists_set set_of two_shapes ->
  exists m, make_sim set_of two_shapes size orders wl incidence substrate (use_options (after h) user) = Ok m /\
    resolved m <> wanted two_shapes wl.
Proof.
  intros set_of size orders wl incidence substrate h user HS.
  destruct (sim_regions set_of two_shapes size orders wl incidence substrate _ _ HS (C158_options h user))
    as (m & rss & Em & _ & _ & _ & EM & _ & F & ER).
  exists m. split; [exact Em|]. unfold resolved. rewrite ER. intros E.
  unfold two_shapes, geom_list, numbered in F. cbn [map gl_geometry app length seq combine] in F.
  inversion F as [|p0 r0 l0 k0 N0 F1]; subst. inversion F1 as [|p1 r1 l1 k1 N1 F2]; subst. inversion F2 as [|p2 r2 l2 k2 N2 F3]; subst.
  inversion F3; subst.
  destruct N0 as (i0 & G0 & ->). inversion G0; subst. destruct N2 as (i2 & G2 & ->). inversion G2; subst.
  destruct N1 as (i1 & G1 & ->). inversion G1 as [|s1 a1 l1' k1' (x1 & Hx1 & Ex1 & M1) G1']; subst.
  inversion G1' as [|s2 a2 l2' k2' (x2 & Hx2 & Ex2 & M2) G2']; subst. inversion G2'; subst.
  cbn [fst snd sh_mat] in *.
  assert (a1 = a2).
  { change (mat_str (GaAs_at 1 400 4)) with (mat_str (GaAs_at 0 300 3)) in *.
    destruct (Nat.lt_trichotomy a1 a2) as [Hlt|[He|Hlt]]; [|exact He|].
    - now elim (M2 _ _ Hlt Hx1).
    - now elim (M1 _ _ Hlt Hx2). }
  subst a2. cbn in E. injection E as E1 E2. rewrite E1 in E2. injection E2 as E2 _.
  unfold GaAs_at in E2. cbn [m_n m_k] in E2. cbn in E2. lra.
Qed.
(** A shape whose type is written in any other way is left out without a word. *)
Theorem C159_kind_refuted : forall set_of size orders wl incidence substrate h user,
  lists_set set_of [GLayer 1 (GaAs_at 2 300 3) [Shape "Circle" (GaAs_at 0 300 3) [100]]] ->
  exists m, make_sim set_of [GLayer 1 (GaAs_at 2 300 3) [Shape "Circle" (GaAs_at 0 300 3) [100]]] size orders wl incidence substrate
      (use_options (after h) user) = Ok m /\ sm_regions m = [].
Proof.
  intros set_of size orders wl incidence substrate h user HS.
  destruct (C159_shapes_partial set_of [GLayer 1 (GaAs_at 2 300 3) [Shape "Circle" (GaAs_at 0 300 3) [100]]] size orders wl incidence substrate h user HS)
    as (m & Em & E).
  { cbn. intros a b [<-|[]] [<-|[]] _. reflexivity. }
  exists m. split; [exact Em|]. unfold resolved in E. cbn in E. now apply map_eq_nil in E.
Qed.
(** A layer with two shapes of one material and one of another. *)
Example C159_example : let a := GaAs_at 0 300 3 in let b := Mat 1 "SiO2" [("x", "0.1")]%string 300 (fun _ => 3 / 2) (fun _ => 0) in
  let l := [GLayer (/ 10 ^ 7) a [Shape "circle" b [100]; Shape "polygon" a [1; 2]; Shape "circle" b [50]]; GLayer 1 b []] in
  (forall x y, In x (all_mats (geom_list l)) -> In y (all_mats (geom_list l)) -> mat_str x = mat_str y -> x = y) /\
  length (wanted l 500) = 3%nat /\ mat_str b = "<'SiO2' material x=0.1>"%string.
Proof.
  cbv zeta. split; [|split; reflexivity].
  cbn [geom_list map gl_geometry app all_mats concat sh_mat].
  intros x y [<-|[<-|[<-|[]]]] [<-|[<-|[<-|[]]]] E; first [reflexivity | (vm_compute in E; discriminate E)].
Qed.
Example C159_set_example : lists_set (fun _ => [GaAs_at 1 400 4; GaAs_at 0 300 3]) two_shapes.
Proof.
  unfold lists_set, two_shapes. cbn [map concat gl_geometry sh_mat app]. split.
  - repeat constructor; cbn; [|tauto]. intros [E|[]]. apply (f_equal m_id) in E. discriminate.
  - intros x. cbn. tauto.
Qed.
(** A solver that reflects a tenth, loses half of the incident light in the one layer and transmits
    the rest, whatever the polarisation, at 60 degrees from a medium of index 3/2. *)
Definition third : flux := fun i _ =>
  match i with
  | 1%nat => (RtoC (/ 3), RtoC (- / 30))
  | 2%nat => (RtoC (4 / 10), RtoC (- / 10))
  | _ => (RtoC (4 / 30), RtoC 0)
  end.
Definition glass : mat := Mat 5 "Glass" [] 300 (fun _ => 3 / 2) (fun _ => 0).
Lemma cosd_60 : cosd 60 = / 2.
Proof. unfold cosd. replace (60 * PI / 180) with (PI / 3) by field. rewrite cos_PI3. lra. Qed.
Example C157_example : 0 < front_n (Some glass) 500 /\ 0 < cosd 60 /\ lit third 60 (front_n (Some glass) 500) /\ lossy third 3 /\
  wave (PTup [RtoC (3 / 5); RtoC (4 / 5)]) (RtoC (3 / 5), RtoC (4 / 5)) /\
  rcwa_R third 60 (3 / 2) = / 10 /\ rcwa_absorption_per_layer third 3 60 (3 / 2) = [/ 2] /\ rcwa_T third 3 60 (3 / 2) = 4 / 10.
Proof.
  assert (C60 := cosd_60). cbn [front_n glass m_n]. split; [lra|]. split; [lra|]. split; [|split; [|split; [|split; [|split]]]].
  - unfold lit, Phi, net. cbn. rewrite C60. lra.
  - intros i Hi. assert (i = 2%nat) by lia. subst. unfold Phi, net. cbn. lra.
  - right. right. split; [reflexivity|]. unfold unit_wave. cbn [fst snd]. rewrite !Cmod_R, !Rabs_pos_eq by lra. lra.
  - unfold rcwa_R. rewrite C60. cbn. lra.
  - unfold rcwa_absorption_per_layer, net. rewrite C60. cbn. destruct (Rlt_dec _ _); [|exfalso; lra]. f_equal. lra.
  - unfold rcwa_T, net. rewrite C60. cbn. lra.
Qed.
Example C157_word_example : in_sp "unpolarised" = false /\ String.length "unpolarised" <> 2%nat.
Proof. split; [reflexivity|discriminate]. Qed.
(** A power flow that falls by 2 per nm in the second layer. *)
Example C157_profile_example : let F : flux := fun _ z => (RtoC (5 - 2 * z), RtoC 0) in
  (forall y, is_derive (fun u => Re (net F 3 u)) y ((fun _ => -2) y)) /\
  total (firstn 1 [10; 30]) <= 25 < total (firstn 2 [10; 30]) /\
  find_layer [10; 30] 25 = (2%nat, 15).
Proof.
  cbv zeta. split; [|split].
  - intros y. unfold net. cbn. auto_derive; [exact I|ring].
  - cbn. lra.
  - unfold find_layer. destruct (Rlt_dec 25 0); [lra|].
    rewrite (find_depth_spec [10; 30] 1 1 25); [cbn; f_equal; lra|repeat constructor; lra|cbn; lia|cbn; lra].
Qed.
Example C157_cell_example : let c : gcell := [(0%nat, GSingle (GLayer 1 glass [])); (1%nat, GJunction [GLayer 1 glass []; GLayer 2 glass []])] in
  Forall (fun p => snd p <> GOther) c /\ NoDup (map fst c) /\ gpieces c [[/ 10]; [/ 5; / 5]] /\ length (glayers c) = 3%nat.
Proof.
  cbv zeta. split; [repeat constructor; discriminate|]. split; [repeat constructor; cbn; intuition discriminate|].
  split; [repeat constructor|reflexivity].
Qed.

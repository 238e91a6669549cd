(** C197: what the drift-diffusion module remembers between calls. *)
From Coq Require Import Reals ZArith List Bool Arith String Lia Lra.
From Verif Require Import Common DDStateModel.
From Coq Require Import List.
Import ListNotations.
Open Scope R_scope.

(** * Specification *)
(** The integral of a spectrum by trapeziums. *)
Fixpoint trapezium (ws ys : list R) : R :=
  match ws, ys with
  | w :: ((w' :: _) as ws'), y :: ((y' :: _) as ys') => (y + y') / 2 * (w' - w) + trapezium ws' ys'
  | _, _ => 0
  end.
(** Calls between which nothing resets the module. *)
Definition is_reset (c : call) : bool := match c with Reset => true | _ => false end.
Definition is_iqe (c : call) : bool := match c with RunIQE => true | _ => false end.
Definition is_dynamic (c : call) : bool := match c with Init mm => (mm <? 0)%Z | _ => false end.
(** A layer with its absorption, as the comment at line 352 asks for. *)
Definition one_layer (wl ab : list R) : list call := [AddLayer; AddAbsorption ab wl].

Section Props.
Context (junk : nat -> R).
Local Notation run := (run junk).
Local Notation step := (step junk).

Lemma run_app cs ds s : run (cs ++ ds) s = run ds (run cs s).
Proof. unfold DDStateModel.run. apply fold_left_app. Qed.

(** * Boundaries *)
(** The velocities are those given, the types are known for two texts; the barrier is not used. *)
Theorem C197_boundary : forall t se sh bar s,
  let f := front t se sh bar s in let b := back t se sh bar s in
  vel_f f = (se, sh) /\ vel_b f = vel_b s /\ vel_b b = (se, sh) /\ vel_f b = vel_f s /\ bar_f f = bar_f s /\ bar_b b = bar_b s /\
  type_b f = type_b s /\ type_f b = type_f s /\ type_f f = type_b b /\
  (type_f f = 1%nat <-> t = "ohmic"%string) /\ (type_f f = 3%nat <-> t = "insulator"%string) /\
  (type_f f = 0%nat <-> t <> "ohmic"%string /\ t <> "insulator"%string).
Proof.
  intros t se sh bar s f b. unfold f, b, front, back, boundary.
  destruct (String.eqb_spec t "ohmic") as [->|n1]; [cbn; repeat split; intros; try discriminate; try tauto; try reflexivity; congruence|].
  destruct (String.eqb_spec t "schottky") as [->|n2]; [cbn; repeat split; intros; try discriminate; try tauto; try reflexivity; congruence|].
  destruct (String.eqb_spec t "insulator") as [->|n3]; [cbn; repeat split; intros; try discriminate; try tauto; try reflexivity; congruence|].
  cbn; repeat split; intros; try discriminate; try tauto; try reflexivity; congruence.
Qed.

(** States that differ at most in the types of boundaries, the barriers and OC. *)
Definition alike (s s' : st) : Prop :=
  dyn s = dyn s' /\ single s = single s' /\ numwl s = numwl s' /\ mreg s = mreg s' /\ waves s = waves s' /\ lib s = lib s' /\ prof s = prof s' /\
  pf s = pf s' /\ flux s = flux s' /\ vel_f s = vel_f s' /\ vel_b s = vel_b s' /\ eq s = eq s' /\ sc s = sc s' /\ ocn s = ocn s' /\ ocp s = ocp s' /\ gen s = gen s'.
Lemma alike_step s s' c : alike s s' -> alike (step s c) (step s' c).
Proof.
  intros (h1 & h2 & h3 & h4 & h5 & h6 & h7 & h8 & h9 & h10 & h11 & h12 & h13 & h14 & h15 & h16). destruct s, s'. cbn in *. subst.
  destruct c; cbn; try (unfold front, back; cbn; destruct (boundary t); cbn); try (unfold light_sc; cbn; destruct (mode =? 1)%Z; [|destruct (mode =? -1)%Z]; cbn); unfold alike; cbn; auto 20.
Qed.
Lemma alike_run cs : forall s s', alike s s' -> alike (run cs s) (run cs s').
Proof. induction cs as [|c cs IH]; intros s s' h; [exact h|]. cbn. apply IH, alike_step, h. Qed.
(** The type of a boundary and its barrier have no effect on what is solved, then or later: an insulator is
    solved as an ohmic contact. *)
Theorem C197_type : forall t t' se sh bar bar' s cs,
  (let a := run (Front t se sh bar :: cs) s in let b := run (Front t' se sh bar' :: cs) s in
   view a = view b /\ kind a = kind b /\ flux a = flux b /\ forall mm, adapts mm a = adapts mm b) /\
  (let a := run (Back t se sh bar :: cs) s in let b := run (Back t' se sh bar' :: cs) s in
   view a = view b /\ kind a = kind b /\ flux a = flux b /\ forall mm, adapts mm a = adapts mm b).
Proof.
  intros t t' se sh bar bar' s cs.
  assert (H : forall a b, alike a b -> view a = view b /\ kind a = kind b /\ flux a = flux b /\ forall mm, adapts mm a = adapts mm b).
  { intros a b (h1 & h2 & h3 & h4 & h5 & h6 & h7 & h8 & h9 & h10 & h11 & h12 & h13 & h14 & h15 & h16).
    unfold view, kind, adapts, init. cbn. rewrite h1, h2, h9, h10, h11, h12, h13, h14, h15, h16. auto. }
  split; cbv zeta; apply H; cbn; apply alike_run; unfold front, back; destruct (boundary t), (boundary t'); unfold alike; cbn; auto 20.
Qed.

(** * Dynamic meshes *)
(** The mesh is adapted if any call so far, whatever was reset since, was with a negative number of points. *)
Theorem C197_dynamic : forall cs, dyn (run cs loaded) = existsb is_dynamic cs.
Proof.
  assert (H : forall cs s, dyn (run cs s) = (dyn s || existsb is_dynamic cs)%bool).
  { induction cs as [|c cs IH]; intros s; [cbn; now rewrite orb_false_r|]. cbn [existsb]. change (run (c :: cs) s) with (run cs (step s c)). rewrite IH, orb_assoc. f_equal.
    destruct c; cbn; try (now rewrite orb_false_r); try reflexivity.
    - unfold front. destruct (boundary t). cbn. now rewrite orb_false_r.
    - unfold back. destruct (boundary t). cbn. now rewrite orb_false_r.
    - unfold light_sc. destruct (mode =? 1)%Z; [|destruct (mode =? -1)%Z]; cbn; now rewrite orb_false_r. }
  intros cs. rewrite H. reflexivity.
Qed.
(** Reset does not undo it: a later device with a given number of points has its mesh adapted. *)
Theorem C197_dynamic_refuted : exists cs, adapts 400 (run [Reset] loaded) = false /\ adapts 400 (run (cs ++ [Reset]) loaded) = true.
Proof. exists [Init (-400); Equilibrium]. split; reflexivity. Qed.

(** * Light *)
(** Quantum efficiencies leave the module with light of a single wavelength until the next Reset. *)
Theorem C197_single : forall cs ds, forallb (fun c => negb (is_reset c)) ds = true ->
  let s := run (cs ++ Reset :: ds) loaded in single s = existsb is_iqe ds /\
  forall m b, kind (run [LightSC m b] s) = if existsb is_iqe ds then Single else Broadband.
Proof.
  intros cs ds h. cbv zeta. rewrite run_app. set (s0 := run cs loaded).
  assert (H : forall ds s, forallb (fun c => negb (is_reset c)) ds = true -> single (run ds s) = (single s || existsb is_iqe ds)%bool).
  { clear. induction ds as [|c ds IH]; intros s h; [cbn; now rewrite orb_false_r|]. cbn [forallb] in h. apply andb_prop in h as [h1 h2].
    cbn [existsb]. change (run (c :: ds) s) with (run ds (step s c)). rewrite (IH _ h2), orb_assoc. f_equal.
    destruct c; cbn in *; try discriminate; try (now rewrite orb_false_r); try (now rewrite orb_true_r).
    - unfold front. destruct (boundary t). cbn. now rewrite orb_false_r.
    - unfold back. destruct (boundary t). cbn. now rewrite orb_false_r.
    - unfold light_sc. destruct (mode =? 1)%Z; [|destruct (mode =? -1)%Z]; cbn; now rewrite orb_false_r. }
  assert (E : single (run (Reset :: ds) s0) = existsb is_iqe ds) by (change (run (Reset :: ds) s0) with (run ds (reset s0)); rewrite (H ds _ h); reflexivity).
  split; [exact E|]. intros m b. rewrite <- E. generalize (run (Reset :: ds) s0). clear. intros s. cbn [DDStateModel.run fold_left DDStateModel.step]. unfold kind, light_sc.
  destruct (m =? 1)%Z; [|destruct (m =? -1)%Z]; cbn; destruct (single s); reflexivity.
Qed.

Lemma flux_shift p w n : flux_to p w (S n) = (p 0%nat + p 1%nat) / 2 * (w 1%nat - w 0%nat) + flux_to (fun k => p (S k)) (fun k => w (S k)) n.
Proof. induction n as [|n IH]; [cbn; ring|]. change (flux_to p w (S (S n))) with (flux_to p w (S n) + (p (S n) + p (S (S n))) / 2 * (w (S (S n)) - w (S n))). rewrite IH. cbn [flux_to]. ring. Qed.
Lemma flux_list : forall ws ys p w, length ws = length ys -> (forall k, (k < length ws)%nat -> p k = nth k ys 0 /\ w k = nth k ws 0) ->
  flux_to p w (length ws - 1) = trapezium ws ys.
Proof.
  induction ws as [|a ws IH]; intros ys p w hl hk; [reflexivity|]. destruct ys as [|y ys]; [discriminate|].
  destruct ws as [|a' ws]; [reflexivity|]. destruct ys as [|y' ys]; [discriminate|].
  replace (length (a :: a' :: ws) - 1)%nat with (S (length (a' :: ws) - 1)) by (cbn [length]; lia).
  rewrite flux_shift. destruct (hk 0%nat ltac:(cbn [length]; lia)) as [e1 e2]. destruct (hk 1%nat ltac:(cbn [length]; lia)) as [e3 e4]. cbn [nth] in e1, e2, e3, e4. rewrite e1, e2, e3, e4.
  rewrite (IH (y' :: ys) (fun k => p (S k)) (fun k => w (S k))); [reflexivity|cbn [length] in *; lia|].
  intros k hk'. apply (hk (S k)). cbn [length] in *. lia.
Qed.
(** Whatever was done before, the wavelengths and profiles of set_generation are those used afterwards and
    Illumination integrates the spectrum over those wavelengths. *)
Theorem C197_light : forall cs wl rows sp, wl <> [] -> length sp = length wl -> (forall r, In r rows -> length r = length wl) ->
  let s := run (cs ++ [SetGeneration wl rows; Illumination sp]) loaded in
  S (numwl s) = length wl /\ map (waves s) (seq 0 (length wl)) = wl /\ map (pf s) (seq 0 (length wl)) = sp /\
  (forall j r, nth_error rows j = Some r -> map (prof s j) (seq 0 (length wl)) = r) /\ flux s = trapezium wl sp.
Proof.
  intros cs wl rows sp hne hl hr. cbv zeta. rewrite run_app. set (s0 := run cs loaded). cbn [DDStateModel.run fold_left DDStateModel.step].
  assert (h0 : (0 < length wl)%nat) by (destruct wl; [contradiction|cbn [length]; lia]).
  assert (A : forall l a k, length l = length wl -> (k < length wl)%nat -> assign junk (length wl - 1) l a k = nth k l 0).
  { intros l a k hl' hk. unfold assign, elem. replace (k <=? length wl - 1)%nat with true by (symmetry; apply Nat.leb_le; lia). apply nth_indep. lia. }
  assert (M : forall l a, length l = length wl -> map (assign junk (length wl - 1) l a) (seq 0 (length wl)) = l).
  { intros l a hl'. apply nth_ext with (d := 0) (d' := 0); [rewrite map_length, seq_length; congruence|]. intros k hk. rewrite map_length, seq_length in hk.
    rewrite nth_indep with (d' := assign junk (length wl - 1) l a 0%nat) by (rewrite map_length, seq_length; exact hk).
    rewrite map_nth, seq_nth by exact hk. apply A; assumption. }
  unfold illumination, set_generation. cbn [numwl waves pf prof flux].
  split; [lia|]. split; [apply M; reflexivity|]. split; [apply M; exact hl|]. split.
  - intros j r hj. assert (hj' : (j < length rows)%nat) by (apply nth_error_Some; congruence).
    replace (j <? length rows)%nat with true by (symmetry; apply Nat.ltb_lt; exact hj'). rewrite (nth_error_nth rows j [] hj). apply M. apply hr. eapply nth_error_In, hj.
  - apply flux_list; [symmetry; exact hl|]. intros k hk. split; apply A; auto.
Qed.
(** Each calculation of quantum efficiencies leaves a flux a hundred million times smaller. *)
Theorem C197_iqe_flux : forall cs wl rows sp n, wl <> [] -> length sp = length wl -> (forall r, In r rows -> length r = length wl) ->
  flux (run (cs ++ [SetGeneration wl rows; Illumination sp] ++ repeat RunIQE n) loaded) * (10 ^ 8) ^ n = trapezium wl sp.
Proof.
  intros cs wl rows sp n h1 h2 h3. rewrite app_assoc, run_app. destruct (C197_light cs wl rows sp h1 h2 h3) as (_ & _ & _ & _ & <-).
  generalize (run (cs ++ [SetGeneration wl rows; Illumination sp]) loaded). clear. induction n as [|n IH]; intros s; [cbn; ring|].
  change (run (repeat RunIQE (S n)) s) with (run (repeat RunIQE n) (run_iqe s)). specialize (IH (run_iqe s)).
  rewrite <- tech_pow_Rmult, (Rmult_comm (10 ^ 8)), <- Rmult_assoc, IH.
  unfold run_iqe. cbn [flux]. field.
Qed.

(** * Conditions of the solutions *)
Definition keeps (c : call) : bool := match c with Equilibrium => false | LightSC m _ => negb (m =? -1)%Z | _ => true end.
(** After Equilibrium both kinds of carriers recombine at both surfaces; unless it was followed by light at
    open circuit, voltages and quantum efficiencies are solved with the potential of the front given. *)
Theorem C197_surfaces : forall cs ds s, forallb keeps ds = true -> let t := run (cs ++ Equilibrium :: ds) s in
  eq t = false /\ ocn t = false /\ ocp t = false /\ sc (run [RunIV] t) = true /\ sc (run [RunIQE] t) = true /\ sc (run [LightSC 1 true] t) = true /\
  gen (run [LightSC 1 true] t) = true /\ gen (run [Equilibrium] t) = gen t /\ kind (equilibrium_in t) = Dark /\
  view (equilibrium_in t) = (vel_f t, vel_b t, (true, false, false, false)).
Proof.
  intros cs ds s h. cbv zeta. rewrite run_app. set (s0 := run cs s). change (run (Equilibrium :: ds) s0) with (run ds (equilibrium s0)).
  assert (H : forall ds t, forallb keeps ds = true -> eq t = false /\ ocn t = false /\ ocp t = false -> eq (run ds t) = false /\ ocn (run ds t) = false /\ ocp (run ds t) = false).
  { clear. induction ds as [|c ds IH]; intros t h ht; [exact ht|]. cbn [forallb] in h. apply andb_prop in h as [h1 h2].
    change (run (c :: ds) t) with (run ds (step t c)). apply IH; [exact h2|]. clear IH h2.
    destruct c; cbn in *; try discriminate; try exact ht.
    - unfold front. destruct (boundary t0). exact ht.
    - unfold back. destruct (boundary t0). exact ht.
    - unfold light_sc. destruct (mode =? 1)%Z; [cbn; tauto|]. destruct (mode =? -1)%Z; [discriminate|cbn; tauto]. }
  destruct (H ds (equilibrium s0) h) as (e1 & e2 & e3); [cbn; auto|].
  repeat split; try assumption.
Qed.
(** Light other than at open circuit has recombination at both surfaces again, whatever was before. *)
Theorem C197_closed : forall m b s, m <> (-1)%Z -> let t := run [LightSC m b] s in
  ocn t = false /\ ocp t = false /\ sc t = (m =? 1)%Z /\ gen t = true /\ eq t = eq s.
Proof.
  intros m b s h. cbn [DDStateModel.run fold_left DDStateModel.step]. unfold light_sc.
  destruct (m =? 1)%Z; [cbn; auto|]. destruct (Z.eqb_spec m (-1)) as [e|_]; [contradiction|cbn; auto].
Qed.
(** Open circuit is not undone by RunIV: minority carriers keep to be without recombination at a surface. *)
Theorem C197_surfaces_refuted : forall s, ocn (run [Equilibrium; LightSC (-1) true; RunIV] s) = true /\ ocp (run [Equilibrium; LightSC (-1) false; RunIV] s) = true.
Proof. intros s. split; reflexivity. Qed.

(** * Absorption of layers *)
(** With the same wavelengths for all layers every layer has its own absorption, whatever was in the module. *)
Theorem C197_absorption : forall s wl abs, wl <> [] -> (forall ab, In ab abs -> length ab = length wl) ->
  let t := run (Reset :: flat_map (one_layer wl) abs) s in
  mreg t = length abs /\ (forall i ab, nth_error abs i = Some ab -> map (lib t (S i)) (seq 0 (length wl)) = ab) /\
  (abs <> [] -> S (numwl t) = length wl /\ map (waves t) (seq 0 (length wl)) = wl).
Proof.
  intros s wl abs hne. cbv zeta. change (run (Reset :: flat_map (one_layer wl) abs) s) with (run (flat_map (one_layer wl) abs) (reset s)).
  assert (h0 : (0 < length wl)%nat) by (destruct wl; [contradiction|cbn [length]; lia]).
  assert (M : forall n l a, n = (length wl - 1)%nat -> length l = length wl -> map (assign junk n l a) (seq 0 (length wl)) = l).
  { intros n l a -> hl'. apply nth_ext with (d := 0) (d' := 0); [rewrite map_length, seq_length; congruence|]. intros k hk. rewrite map_length, seq_length in hk.
    rewrite nth_indep with (d' := assign junk (length wl - 1) l a 0%nat) by (rewrite map_length, seq_length; exact hk).
    rewrite map_nth, seq_nth by exact hk. cbn [Nat.add]. unfold assign, elem. replace (k <=? length wl - 1)%nat with true by (symmetry; apply Nat.leb_le; lia). apply nth_indep. lia. }
  assert (H : (forall ab, In ab abs -> length ab = length wl) -> let t := run (flat_map (one_layer wl) abs) (reset s) in
    mreg t = length abs /\ (forall i ab, nth_error abs i = Some ab -> map (lib t (S i)) (seq 0 (length wl)) = ab) /\
    (abs = [] -> numwl t = 2%nat) /\ (abs <> [] -> S (numwl t) = length wl /\ map (waves t) (seq 0 (length wl)) = wl)).
  { induction abs as [|ab abs IH] using rev_ind; intros hl; cbv zeta.
    { cbn. split; [reflexivity|]. split; [intros [|i] ab e; discriminate e|]. split; [reflexivity|contradiction]. }
    rewrite flat_map_app, run_app. cbn [flat_map one_layer app].
    destruct IH as (i1 & i2 & i3 & i4); [intros x hx; apply hl, in_app_iff; left; exact hx|].
    set (t0 := run (flat_map (one_layer wl) abs) (reset s)) in *. clearbody t0. cbn [DDStateModel.run fold_left DDStateModel.step].
    unfold add_absorption, add_layer. cbn [numwl mreg lib waves].
    assert (hab : length ab = length wl) by (apply hl, in_app_iff; right; left; reflexivity).
    set (n := if (numwl t0 =? 2)%nat then (length wl - 1)%nat else numwl t0).
    assert (hn : n = (length wl - 1)%nat).
    { unfold n. destruct (Nat.eqb_spec (numwl t0) 2) as [e|e]; [reflexivity|]. destruct abs as [|x abs]; [specialize (i3 eq_refl); contradiction|].
      destruct i4 as [i4 _]; [discriminate|]. lia. }
    split; [rewrite app_length; cbn [length]; lia|]. split; [|split].
    - intros i x e. destruct (Nat.eq_dec i (length abs)) as [->|ne].
      + rewrite nth_error_app2, Nat.sub_diag in e by lia. injection e as <-. rewrite i1, Nat.eqb_refl. apply M; assumption.
      + assert (hi : (i < length abs)%nat). { assert (i < length (abs ++ [ab]))%nat by (apply nth_error_Some; congruence). rewrite app_length in *. cbn [length] in *. lia. }
        rewrite nth_error_app1 in e by exact hi. replace (S i =? S (mreg t0))%nat with false by (symmetry; apply Nat.eqb_neq; lia). apply i2, e.
    - intros e. destruct abs; discriminate e.
    - intros _. split; [lia|]. destruct (Nat.eqb_spec (numwl t0) 2) as [e|e]; [apply M; [exact hn|reflexivity]|].
      apply i4. intros ->. specialize (i3 eq_refl). contradiction. }
  intros hl. destruct (H hl) as (h1 & h2 & _ & h4). auto.
Qed.
(** Three wavelengths are taken for none: those of the next layer replace them, and the absorption of the
    first layer is taken at other wavelengths and is zero at those that it has no values for. *)
Theorem C197_absorption_refuted : exists wl wl' ab ab', length ab = length wl /\ length ab' = length wl' /\
  forall s, let t := run (Reset :: one_layer wl ab ++ one_layer wl' ab') s in
  map (waves t) (seq 0 5) = wl' /\ map (lib t 1) (seq 0 5) = ab ++ [0; 0] /\ forall x, In x ab -> 0 < x.
Proof.
  exists [1; 2; 3], [4; 5; 6; 7; 8], [1; 1; 1], [2; 2; 2; 2; 2]. split; [reflexivity|]. split; [reflexivity|]. intros s. cbv zeta.
  split; [reflexivity|]. split; [reflexivity|]. intros x hx. cbn in hx. intuition lra.
Qed.
End Props.

(** * Cases *)
Example C197_type_ex : let s := run (fun _ => 0) [Front "insulator" 5 6 0; Equilibrium; LightSC 1 true] loaded in
  type_f s = 3%nat /\ view s = ((5, 6), (0, 0), (false, true, false, false)) /\ kind s = Broadband.
Proof. repeat split; reflexivity. Qed.
Example C197_surfaces_ex : view (run (fun _ => 0) [Front "ohmic" 1 2 0; Back "ohmic" 3 4 0; LightSC (-1) true; Equilibrium; RunIV] loaded) = ((1, 2), (3, 4), (false, true, false, false)).
Proof. reflexivity. Qed.
Example C197_single_ex : kind (run (fun _ => 0) [Reset; RunIQE; LightSC 1 true] loaded) = Single /\ kind (run (fun _ => 0) [RunIQE; Reset; LightSC 1 true] loaded) = Broadband.
Proof. split; reflexivity. Qed.
Example C197_light_ex : flux (run (fun _ => 7) [Reset; SetGeneration [1; 2; 4] [[0; 0; 0]; [1; 1; 1]]; Illumination [3; 5; 1]] loaded) = 10
  /\ trapezium [1; 2; 4] [3; 5; 1] = 10.
Proof. split; cbn; lra. Qed.
Example C197_absorption_ex : let t := run (fun _ => 7) (Reset :: flat_map (one_layer [1; 2]) [[5; 6]; [8; 9]]) loaded in
  map (lib t 1) [0%nat; 1%nat] = [5; 6] /\ map (lib t 2) [0%nat; 1%nat] = [8; 9].
Proof. split; reflexivity. Qed.

Lemma last_move (ws : list R) : forall w w', last (w' :: ws) w = last ws w'.
Proof. induction ws as [|a ws IH]; intros w w'; [reflexivity|]. change (last (w' :: a :: ws) w) with (last (a :: ws) w). now rewrite !IH. Qed.
(** The trapeziums are exact for spectra that are linear in the wavelength. *)
Theorem C197_flux_linear : forall a b w ws, trapezium (w :: ws) (map (fun x => a + b * x) (w :: ws)) = a * (last ws w - w) + b * (last ws w ^ 2 - w ^ 2) / 2.
Proof.
  intros a b w ws. revert w. induction ws as [|w' ws IH]; intros w; [cbn; lra|].
  change (trapezium (w :: w' :: ws) (map (fun x => a + b * x) (w :: w' :: ws))) with
    ((a + b * w + (a + b * w')) / 2 * (w' - w) + trapezium (w' :: ws) (map (fun x => a + b * x) (w' :: ws))).
  rewrite IH, last_move. field.
Qed.

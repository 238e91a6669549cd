(** C173: the detailed-balance current in the full Planck mode. *)
From Coq Require Import Reals Lra Lia List Arith Bool Psatz.
From Verif Require Import Common PhysConst InterpModel NpModel DetBalModel DetBalProps DbPlanckModel.
Import ListNotations.
Open Scope R_scope.
Open Scope list_scope.

(** * One wavelength *)
Section Term.
  Context (T A l : R) (HT : 0 < T) (HA : 0 <= A) (Hl : 0 < l).
  Let y (v : R) : R := exp (- ((h * c / l - q * v) / (kb * T))).
  Lemma kT_pos : 0 < kb * T.
  Proof. apply Rmult_lt_0_compat; [apply kb_pos|exact HT]. Qed.
  Lemma y_pos v : 0 < y v.
  Proof. apply exp_pos. Qed.
  Lemma y_lt1 v : q * v < h * c / l -> y v < 1.
  Proof.
    intros H. unfold y. rewrite <- exp_0. apply exp_increasing. assert (K := kT_pos).
    assert (0 < (h * c / l - q * v) / (kb * T)); [|lra]. apply Rdiv_lt_0_compat; lra.
  Qed.
  Lemma y_mono v w : v <= w -> y v <= y w.
  Proof.
    intros H. unfold y. assert (K := kT_pos). assert (Q := q_pos).
    assert (E : - ((h * c / l - q * v) / (kb * T)) <= - ((h * c / l - q * w) / (kb * T))).
    { assert ((h * c / l - q * w) / (kb * T) <= (h * c / l - q * v) / (kb * T)); [|lra].
      apply Rmult_le_compat_r; [left; now apply Rinv_0_lt_compat|]. nra. }
    destruct E as [E|E]; [left; now apply exp_increasing|rewrite E; lra].
  Qed.
  Lemma A4 : 0 <= A / l ^ 4.
  Proof. apply Rmult_le_pos; [exact HA|]. left. apply Rinv_0_lt_compat, pow_lt, Hl. Qed.
  Lemma term_y v : q * v < h * c / l -> planck_term T v A l = A / l ^ 4 * (y v / (1 - y v)).
  Proof.
    intros H. unfold planck_term. assert (P := y_pos v). assert (L := y_lt1 v H).
    assert (E : exp ((h * c / l - q * v) / (kb * T)) = / y v).
    { unfold y. rewrite exp_Ropp, Rinv_inv. reflexivity. }
    rewrite E. field. repeat split; lra.
  Qed.
  Lemma boltz_y v : A / l ^ 4 * exp (- (h * c / l) / (kb * T)) * exp (q * v / (kb * T)) = A / l ^ 4 * y v.
  Proof.
    rewrite Rmult_assoc, <- exp_plus. f_equal. unfold y. f_equal. assert (K := kb_pos). field. repeat split; lra.
  Qed.
  Lemma ratio_mono a b : 0 < a -> a <= b -> b < 1 -> a / (1 - a) <= b / (1 - b).
  Proof.
    intros Ha Hab Hb. assert (b / (1 - b) - a / (1 - a) = (b - a) / ((1 - a) * (1 - b))) by (field; lra).
    assert (0 <= (b - a) / ((1 - a) * (1 - b))); [|lra]. apply Rmult_le_pos; [lra|]. left. apply Rinv_0_lt_compat. nra.
  Qed.
  Lemma excess_mono a b : 0 < a -> a <= b -> b < 1 -> a / (1 - a) - a <= b / (1 - b) - b.
  Proof.
    intros Ha Hab Hb. assert (R1 := ratio_mono a b Ha Hab Hb).
    replace (a / (1 - a) - a) with (a * (a / (1 - a))) by (field; lra).
    replace (b / (1 - b) - b) with (b * (b / (1 - b))) by (field; lra).
    apply Rmult_le_compat; try lra. apply Rmult_le_pos; [lra|]. left. apply Rinv_0_lt_compat. lra.
  Qed.
  Lemma term_nonneg v : q * v < h * c / l -> 0 <= planck_term T v A l.
  Proof.
    intros H. rewrite term_y by exact H. assert (P := y_pos v). assert (L := y_lt1 v H).
    apply Rmult_le_pos; [apply A4|]. apply Rmult_le_pos; [lra|]. left. apply Rinv_0_lt_compat. lra.
  Qed.
  Lemma term_mono v w : v <= w -> q * w < h * c / l -> planck_term T v A l <= planck_term T w A l.
  Proof.
    intros H Hw. assert (Q := q_pos). rewrite !term_y by nra. apply Rmult_le_compat_l; [apply A4|].
    apply ratio_mono; [apply y_pos|now apply y_mono|now apply y_lt1].
  Qed.
  Lemma term_excess v w : v <= w -> q * w < h * c / l ->
    A / l ^ 4 * exp (- (h * c / l) / (kb * T)) * exp (q * w / (kb * T))
    - A / l ^ 4 * exp (- (h * c / l) / (kb * T)) * exp (q * v / (kb * T))
    <= planck_term T w A l - planck_term T v A l.
  Proof.
    intros H Hw. assert (Q := q_pos). rewrite !boltz_y, !term_y by nra.
    assert (E := excess_mono (y v) (y w) (y_pos v) (y_mono v w H) (y_lt1 w Hw)).
    assert (D := Rmult_le_compat_l _ _ _ A4 E). lra.
  Qed.
End Term.
Lemma term_zero T v l : planck_term T v 0 l = 0.
Proof. unfold planck_term, Rdiv. ring. Qed.

(** * All wavelengths *)
Lemma trapz_map_le {X} (f g : X -> R) (P : list X) (xs : list R) : length P = length xs -> nondecreasing xs ->
  (forall p, In p P -> f p <= g p) -> np_trapz (map f P) xs <= np_trapz (map g P) xs.
Proof.
  intros L N H. apply np_trapz_le; rewrite ?map_length; auto.
  intros i Hi. destruct P as [|p0 P]; [cbn in L; lia|].
  rewrite (nth_indep (map f _) 0 (f p0)), (nth_indep (map g _) 0 (g p0)), !map_nth by (rewrite map_length; lia).
  apply H, nth_In. lia.
Qed.
Lemma trapz_map_minus {X} (f g : X -> R) : forall (P : list X) (xs : list R),
  np_trapz (map (fun p => f p - g p) P) xs = np_trapz (map f P) xs - np_trapz (map g P) xs.
Proof.
  induction P as [|p [|p' P] IH]; intros [|x [|x' xs]]; try (cbn; lra).
  cbn [map]. rewrite !np_trapz_cons. specialize (IH (x' :: xs)). cbn [map] in IH. rewrite IH. lra.
Qed.
Lemma trapz_map_scale {X} (k : R) (f : X -> R) (P : list X) xs :
  np_trapz (map (fun p => k * f p) P) xs = k * np_trapz (map f P) xs.
Proof. rewrite <- np_trapz_scale, map_map. reflexivity. Qed.

Section Weights.
  Context (As wl : list R) (vmax : R) (HL : length As = length wl) (Hwl : nondecreasing wl).
  Context (HA : forall A l, In (A, l) (combine As wl) -> 0 < l /\ 0 <= A /\ (A = 0 \/ q * vmax < h * c / l)).
  Let P := combine As wl.
  Lemma P_len : length P = length wl.
  Proof. unfold P. rewrite combine_length. lia. Qed.
  Definition integral (T v : R) : R := np_trapz (map (fun p => planck_term T v (fst p) (snd p)) P) wl.
  Lemma integral_nonneg T v : 0 < T -> v <= vmax -> 0 <= integral T v.
  Proof.
    intros HT Hv. unfold integral. apply np_trapz_nonneg; [rewrite map_length; apply P_len| |exact Hwl].
    intros x Hx. apply in_map_iff in Hx as ([A l] & <- & Hp). cbn [fst snd]. destruct (HA A l Hp) as (L & A0 & [->|E]).
    - rewrite term_zero. lra.
    - assert (Q := q_pos). apply term_nonneg; try assumption. nra.
  Qed.
  Lemma integral_mono T v w : 0 < T -> v <= w -> w <= vmax -> integral T v <= integral T w.
  Proof.
    intros HT Hv Hw. unfold integral. apply trapz_map_le; [apply P_len|exact Hwl|].
    intros [A l] Hp. cbn [fst snd]. destruct (HA A l Hp) as (L & A0 & [->|E]).
    - rewrite !term_zero. lra.
    - assert (Q := q_pos). apply term_mono; try assumption. nra.
  Qed.
  Lemma emission_integral n T : emission n As wl T
    = 2 * q * n ^ 2 * c * np_trapz (map (fun p => fst p / snd p ^ 4 * exp (- (h * c / snd p) / (kb * T))) P) wl.
  Proof. unfold emission. fold P. rewrite <- trapz_map_scale. f_equal. apply map_ext. intros p. ring. Qed.
  Lemma integral_excess n T v w : 0 < T -> v <= w -> w <= vmax ->
    emission n As wl T * exp (q * w / (kb * T)) - emission n As wl T * exp (q * v / (kb * T))
    <= 2 * q * n ^ 2 * c * integral T w - 2 * q * n ^ 2 * c * integral T v.
  Proof.
    intros HT Hv Hw. rewrite emission_integral.
    set (B := fun p : R * R => fst p / snd p ^ 4 * exp (- (h * c / snd p) / (kb * T))).
    set (K := 2 * q * n ^ 2 * c).
    assert (HK : 0 <= K).
    { unfold K. assert (Q := q_pos). assert (C := c_pos). apply Rmult_le_pos; [|lra]. apply Rmult_le_pos; [lra|apply pow2_ge_0]. }
    assert (E : np_trapz (map (fun p => B p * exp (q * w / (kb * T)) - B p * exp (q * v / (kb * T))) P) wl
      <= np_trapz (map (fun p => planck_term T w (fst p) (snd p) - planck_term T v (fst p) (snd p)) P) wl).
    { apply trapz_map_le; [apply P_len|exact Hwl|]. intros [A l] Hp. unfold B. cbn [fst snd].
      destruct (HA A l Hp) as (L & A0 & [->|E]).
      - rewrite !term_zero. unfold Rdiv. rewrite !Rmult_0_l. lra.
      - assert (Q := q_pos). apply term_excess; try assumption. nra. }
    rewrite !trapz_map_minus in E. fold (integral T w) (integral T v) in E.
    assert (S_ : forall a, np_trapz (map (fun p => B p * a) P) wl = a * np_trapz (map B P) wl).
    { intros a. rewrite <- trapz_map_scale. f_equal. apply map_ext. intros p. ring. }
    rewrite !S_ in E. fold B. assert (D := Rmult_le_compat_l K _ _ HK E). lra.
  Qed.
End Weights.

Lemma limited_le Eg v : limited Eg v <= Eg - / 1000.
Proof. unfold limited. destruct (Rlt_dec _ _); lra. Qed.
Lemma limited_mono Eg v w : v <= w -> limited Eg v <= limited Eg w.
Proof. intros H. unfold limited. destruct (Rlt_dec v _), (Rlt_dec w _); lra. Qed.

(** What is asked of the optics of a junction: physical values, and no absorption below the
    highest voltage that is used. *)
Definition optics_ok (Eg : R) (wl : list R) (refl absorb : R -> R) : Prop :=
  nondecreasing wl /\ forall l, In l wl -> 0 < l /\ 0 <= refl l /\ 0 <= absorb l <= 1
    /\ (0 < absorb l -> q * (Eg - / 1000) < h * c / l).
(** No photon energy in the grid equals a voltage that is used. *)
Definition no_resonance (Eg : R) (wl volts : list R) : Prop :=
  forall v l, In v volts -> In l wl -> h * c / l <> q * Rmin v (Eg - / 1000).

(** The common shape of the two modes. *)
Definition shape (j : db_junction) (wl ph : list R) (steps : nat) (light : bool) (j' : db_junction)
  (Eg n Rsh photo : R) (As : list R) (eqe refl absorb : R -> R) : Prop :=
  b_Eg j = Some Eg /\ b_n j = Some n /\ b_eqe j' = Some eqe /\ b_reflected j' = Some refl /\ b_absorptance j' = Some absorb
  /\ As = map (fun l => surface_integral steps (refl l) (absorb l)) wl
  /\ Rsh = match b_Rsh j with Some r => Rmin r (10 ^ 14) | None => 10 ^ 14 end
  /\ photo = if light then q * np_trapz (map (fun p => fst p * snd p) (combine (map eqe wl) ph)) wl else 0.
Lemma qe_keeps j wl j1 : match b_eqe j with Some _ => Ok j | None => qe_db j wl end = Ok j1 ->
  b_Rsh j1 = b_Rsh j /\ b_Eg j1 = b_Eg j /\ b_j01 j1 = b_j01 j.
Proof.
  intros E1. destruct (b_eqe j); [injection E1 as <-; auto|]. unfold qe_db in E1.
  assert (Hx : forall a, absorptance_db j = Ok a -> b_Rsh a = b_Rsh j /\ b_Eg a = b_Eg j /\ b_j01 a = b_j01 j).
  { intros a Ea. unfold absorptance_db in Ea. destruct (b_absorptance j); [injection Ea as <-; auto|].
    destruct (b_Eg j) as [g|] eqn:EE; [|discriminate]. cbn [attr bindR] in Ea. destruct (Req_EM_T _ _); [discriminate|].
    destruct (b_A j); [|discriminate]. injection Ea as <-. cbn. auto. }
  destruct (absorptance_db j) as [a|]; [|discriminate]. cbn [bindR] in E1. specialize (Hx a eq_refl).
  destruct (b_absorptance a); [|discriminate]. cbn [attr bindR] in E1.
  destruct (b_width a); [destruct (b_absorbed a)|]; injection E1 as <-; exact Hx.
Qed.
Lemma planck_shape j T Ta light steps wl ph volts j' cur :
  iv_db_planck j T Ta light steps wl ph volts = Ok (j', cur) ->
  exists Eg n Rsh photo As eqe refl absorb, shape j wl ph steps light j' Eg n Rsh photo As eqe refl absorb
    /\ b_j01 j' = b_j01 j
    /\ cur = map (fun v => omap2 (fun e s => e + limited Eg v / Rsh - s) (planck_emission n As wl (limited Eg v) T)
                  (omap2 Rplus (Some photo) (planck_emission n As wl 0 Ta))) volts.
Proof.
  intros H. unfold iv_db_planck in H.
  destruct (b_Eg j) as [Eg|] eqn:EE; [|discriminate]. cbn [attr bindR] in H.
  destruct (b_n j) as [n|] eqn:En; [|discriminate]. cbn [attr bindR] in H.
  destruct (match b_eqe j with Some _ => Ok j | None => qe_db j wl end) as [j1|] eqn:E1; [|discriminate]. cbn [bindR] in H.
  destruct (b_eqe j1) as [eqe|] eqn:Ee; [|discriminate]. cbn [attr bindR] in H.
  destruct (b_reflected j1) as [refl|] eqn:Er; [|discriminate]. cbn [attr bindR] in H.
  destruct (b_absorptance j1) as [ab|] eqn:Ea; [|discriminate]. cbn [attr bindR] in H. cbv zeta in H.
  destruct (qe_keeps j wl j1 E1) as (K1 & K2 & K3). rewrite K1 in H.
  remember (match b_Rsh j with Some r => Rmin r (10 ^ 14) | None => 10 ^ 14 end) as Rsh eqn:ER. injection H as <- <-.
  do 8 eexists. split; [|split; [exact K3|reflexivity]]. repeat split; assumption || reflexivity.
Qed.
Lemma boltz_shape j T Ta light steps wl ph volts j' cur :
  iv_db j T Ta light steps wl ph volts = Ok (j', cur) ->
  exists Eg n Rsh photo As eqe refl absorb, shape j wl ph steps light j' Eg n Rsh photo As eqe refl absorb
    /\ cur = map (fun v => emission n As wl T * exp (q * v / (kb * T)) + v / Rsh - (photo + emission n As wl Ta)) volts.
Proof.
  intros H. unfold iv_db in H.
  destruct (b_Eg j) as [Eg|] eqn:EE; [|discriminate]. cbn [attr bindR] in H.
  destruct (b_n j) as [n|] eqn:En; [|discriminate]. cbn [attr bindR] in H.
  destruct (match b_eqe j with Some _ => Ok j | None => qe_db j wl end) as [j1|] eqn:E1; [|discriminate]. cbn [bindR] in H.
  destruct (b_eqe j1) as [eqe|] eqn:Ee; [|discriminate]. cbn [attr bindR] in H.
  destruct (b_reflected j1) as [refl|] eqn:Er; [|discriminate]. cbn [attr bindR] in H.
  destruct (b_absorptance j1) as [ab|] eqn:Ea; [|discriminate]. cbn [attr bindR] in H. cbv zeta in H.
  destruct (qe_keeps j wl j1 E1) as (K1 & _). rewrite K1 in H.
  remember (match b_Rsh j with Some r => Rmin r (10 ^ 14) | None => 10 ^ 14 end) as Rsh eqn:ER. injection H as <- <-.
  exists Eg, n, Rsh,
    (if light then q * np_trapz (map (fun p => fst p * snd p) (combine (map eqe wl) ph)) wl else 0),
    (map (fun l => surface_integral steps (refl l) (ab l)) wl), eqe, refl, ab.
  split; [repeat split; cbn [with_j01 b_eqe b_reflected b_absorptance]; assumption || reflexivity|].
  apply map_ext. intros v. replace (q * 0 / (kb * Ta)) with 0 by (unfold Rdiv; ring). rewrite exp_0. destruct light; lra.
Qed.
Lemma weights_ok Eg steps wl refl absorb : (2 <= steps)%nat -> optics_ok Eg wl refl absorb ->
  let As := map (fun l => surface_integral steps (refl l) (absorb l)) wl in
  forall A l, In (A, l) (combine As wl) -> 0 < l /\ 0 <= A /\ (A = 0 \/ q * (Eg - / 1000) < h * c / l).
Proof.
  intros Hs [_ Ho] As A l Hp.
  assert (G : A = surface_integral steps (refl l) (absorb l) /\ In l wl).
  { unfold As in Hp. clear - Hp. revert Hp. induction wl as [|x w IH]; cbn; [tauto|]. intros [E|E]; [injection E as <- <-; auto|].
    destruct (IH E). auto. }
  destruct G as [-> Hl]. destruct (Ho l Hl) as (L & R0 & A0 & G).
  destruct (surface_integral_range steps (refl l) (absorb l) Hs R0 A0) as [S0 S1].
  split; [exact L|]. split; [exact S0|]. destruct (Req_dec (absorb l) 0) as [Z|Z]; [left; now apply S1|right; apply G; lra].
Qed.
Lemma limited_min Eg v : limited Eg v = Rmin v (Eg - / 1000).
Proof. unfold limited, Rmin. destruct (Rlt_dec _ _), (Rle_dec _ _); lra. Qed.
Lemma no_res_some Eg wl volts n As T v : no_resonance Eg wl volts -> In v volts ->
  planck_emission n As wl (limited Eg v) T = Some (2 * q * n ^ 2 * c * integral As wl T (limited Eg v)).
Proof.
  intros H Hv. unfold planck_emission. destruct (existsb _ wl) eqn:E; [|reflexivity]. exfalso.
  apply existsb_exists in E as (l & Hl & R_). unfold resonant in R_. destruct (Req_EM_T _ _) as [G|]; [|discriminate].
  rewrite limited_min in G. exact (H v l Hv Hl G).
Qed.
Lemma zero_some n As wl T : (forall l, In l wl -> 0 < l) ->
  planck_emission n As wl 0 T = Some (2 * q * n ^ 2 * c * integral As wl T 0).
Proof.
  intros H. unfold planck_emission. destruct (existsb _ wl) eqn:E; [|reflexivity]. exfalso.
  apply existsb_exists in E as (l & Hl & R_). unfold resonant in R_. destruct (Req_EM_T _ _) as [G|]; [|discriminate].
  rewrite Rmult_0_r in G. assert (0 < h * c / l); [|lra].
  apply Rdiv_lt_0_compat; [|now apply H]. apply Rmult_lt_0_compat; [apply h_pos|apply c_pos].
Qed.

(** C173: the curve in the Planck mode. Every current is a number; it rises strictly with the
    voltage up to 1 meV below the gap and is constant from there on; with one temperature it is
    minus the photocurrent at zero bias. *)
Theorem C173_curve_partial :
  forall j T Ta light steps wl ph volts j' cur Eg absorb refl,
    iv_db_planck j T Ta light steps wl ph volts = Ok (j', cur) ->
    b_Eg j = Some Eg -> b_absorptance j' = Some absorb -> b_reflected j' = Some refl ->
    0 < T -> (2 <= steps)%nat -> optics_ok Eg wl refl absorb -> no_resonance Eg wl volts ->
    (forall r, b_Rsh j = Some r -> 0 < r) ->
    exists I eqe, cur = map (fun v => Some (I v)) volts /\ b_eqe j' = Some eqe /\ b_j01 j' = b_j01 j
      /\ (forall v w, In v volts -> In w volts -> v < w -> v < Eg - / 1000 -> I v < I w)
      /\ (forall v w, In v volts -> In w volts -> Eg - / 1000 <= v -> Eg - / 1000 <= w -> I v = I w)
      /\ (T = Ta -> / 1000 < Eg -> In 0 volts ->
          I 0 = - (if light then q * np_trapz (map (fun p => fst p * snd p) (combine (map eqe wl) ph)) wl else 0)).
Proof.
  intros j T Ta light steps wl ph volts j' cur Eg absorb refl H HE Ha Hr HT Hs Ho Hn Hsh.
  destruct (planck_shape _ _ _ _ _ _ _ _ _ _ H) as (Eg' & n & Rsh & photo & As & eqe & refl' & ab' & Sh & HJ & Hc).
  destruct Sh as (E1 & E2 & E3 & E4 & E5 & E6 & E7 & E8).
  assert (Eg' = Eg) by congruence. assert (refl' = refl) by congruence. assert (ab' = absorb) by congruence. subst Eg' refl' ab'.
  assert (HR : 0 < Rsh).
  { subst Rsh. destruct (b_Rsh j) as [r|]; [|apply pow10_pos]. apply Rmin_glb_lt; [now apply Hsh|apply pow10_pos]. }
  assert (HW := weights_ok Eg steps wl refl absorb Hs Ho). cbv zeta in HW. rewrite <- E6 in HW.
  assert (HL : length As = length wl) by (rewrite E6; apply map_length).
  assert (Hpos : forall l, In l wl -> 0 < l) by (intros l Hl; apply Ho; exact Hl).
  set (K := 2 * q * n ^ 2 * c).
  assert (HK : 0 <= K).
  { unfold K. assert (Q := q_pos). assert (C := c_pos). apply Rmult_le_pos; [|lra]. apply Rmult_le_pos; [lra|apply pow2_ge_0]. }
  exists (fun v => K * integral As wl T (limited Eg v) + limited Eg v / Rsh - (photo + K * integral As wl Ta 0)), eqe.
  split; [|split; [exact E3|split; [exact HJ|split; [|split]]]].
  - rewrite Hc. apply map_ext_in. intros v Hv. rewrite (no_res_some Eg wl volts) by assumption.
    rewrite zero_some by assumption. reflexivity.
  - intros v w Hv Hw Hvw Hlim. assert (HI := integral_mono As wl (Eg - / 1000) HL (proj1 Ho) HW T (limited Eg v) (limited Eg w) HT
      (limited_mono Eg v w (Rlt_le _ _ Hvw)) (limited_le Eg w)).
    assert (limited Eg v < limited Eg w) by (unfold limited; destruct (Rlt_dec v _), (Rlt_dec w _); lra).
    assert (limited Eg v / Rsh < limited Eg w / Rsh) by (apply Rmult_lt_compat_r; [now apply Rinv_0_lt_compat|assumption]).
    assert (D := Rmult_le_compat_l K _ _ HK HI). lra.
  - intros v w _ _ Hv Hw. assert (limited Eg v = limited Eg w) as -> by (unfold limited; destruct (Rlt_dec v _), (Rlt_dec w _); lra). reflexivity.
  - intros <- HEg _. assert (limited Eg 0 = 0) as -> by (unfold limited; destruct (Rlt_dec _ _); lra).
    rewrite E8. unfold Rdiv. rewrite Rmult_0_l. lra.
Qed.

(** The Boltzmann mode underestimates the recombination: between two voltages below the limit
    the current of the Planck mode rises at least as much. *)
Theorem C173_boltzmann :
  forall j T Ta light steps wl ph volts jp jb curp curb Eg absorb refl,
    iv_db_planck j T Ta light steps wl ph volts = Ok (jp, curp) ->
    iv_db j T Ta light steps wl ph volts = Ok (jb, curb) ->
    b_Eg j = Some Eg -> b_absorptance jp = Some absorb -> b_reflected jp = Some refl ->
    0 < T -> (2 <= steps)%nat -> optics_ok Eg wl refl absorb -> no_resonance Eg wl volts ->
    exists I B, curp = map (fun v => Some (I v)) volts /\ curb = map B volts
      /\ (forall v w, In v volts -> In w volts -> v <= w -> w <= Eg - / 1000 -> B w - B v <= I w - I v).
Proof.
  intros j T Ta light steps wl ph volts jp jb curp curb Eg absorb refl Hp Hb HE Ha Hr HT Hs Ho Hn.
  destruct (planck_shape _ _ _ _ _ _ _ _ _ _ Hp) as (Eg' & n & Rsh & photo & As & eqe & refl' & ab' & Sh & _ & Hc).
  destruct Sh as (E1 & E2 & E3 & E4 & E5 & E6 & E7 & E8).
  assert (Eg' = Eg) by congruence. assert (refl' = refl) by congruence. assert (ab' = absorb) by congruence. subst Eg' refl' ab'.
  destruct (boltz_shape _ _ _ _ _ _ _ _ _ _ Hb) as (Eg' & n' & Rsh' & photo' & As' & eqe' & refl' & ab' & Sh & Hcb).
  destruct Sh as (F1 & F2 & F3 & F4 & F5 & F6 & F7 & F8).
  assert (Eg' = Eg) by congruence. assert (n' = n) by congruence. subst Eg' n'. assert (Rsh' = Rsh) by congruence. subst Rsh'.
  assert (HJ : jb = with_j01 jp (emission n As' wl T)).
  { unfold iv_db in Hb. unfold iv_db_planck in Hp. rewrite HE, E2 in Hb, Hp. cbn [attr bindR] in Hb, Hp.
    destruct (match b_eqe j with Some _ => Ok j | None => qe_db j wl end) as [j1|]; [|discriminate]. cbn [bindR] in Hb, Hp.
    destruct (b_eqe j1); [|discriminate]. cbn [attr bindR] in Hb, Hp.
    destruct (b_reflected j1) eqn:Er; [|discriminate]. cbn [attr bindR] in Hb, Hp.
    destruct (b_absorptance j1) eqn:Ea; [|discriminate]. cbn [attr bindR] in Hb, Hp. cbv zeta in Hb, Hp.
    injection Hp as <- _. injection Hb as <- _. cbn in F4, F5. rewrite F6. rewrite Er in F4. rewrite Ea in F5.
    injection F4 as ->. injection F5 as ->. reflexivity. }
  rewrite HJ in F4, F5. cbn in F4, F5. assert (refl' = refl) by congruence. assert (ab' = absorb) by congruence. subst refl' ab'.
  rewrite <- E6 in F6. subst As'.
  assert (HW := weights_ok Eg steps wl refl absorb Hs Ho). cbv zeta in HW. rewrite <- E6 in HW.
  assert (HL : length As = length wl) by (rewrite E6; apply map_length).
  assert (Hpos : forall l, In l wl -> 0 < l) by (intros l Hl; apply Ho; exact Hl).
  set (K := 2 * q * n ^ 2 * c).
  exists (fun v => K * integral As wl T (limited Eg v) + limited Eg v / Rsh - (photo + K * integral As wl Ta 0)).
  eexists. split; [|split; [exact Hcb|]].
  - rewrite Hc. apply map_ext_in. intros v Hv. rewrite (no_res_some Eg wl volts) by assumption.
    rewrite zero_some by assumption. reflexivity.
  - intros v w Hv Hw Hvw Hlim.
    assert (L1 : limited Eg v = v) by (unfold limited; destruct (Rlt_dec _ _); lra).
    assert (L2 : limited Eg w = w) by (unfold limited; destruct (Rlt_dec _ _); lra). rewrite L1, L2.
    assert (D := integral_excess As wl (Eg - / 1000) HL (proj1 Ho) HW n T v w HT Hvw Hlim). fold K in D. cbv beta. rewrite <- E7. lra.
Qed.

(** With the default absorptance (a top hat) the optics are as asked for whenever the gap is
    between zero and 7 eV. *)
Theorem C173_default : forall j j' wl Eg A absorb refl,
  absorptance_db j = Ok j' -> b_absorptance j = None -> b_Eg j = Some Eg -> b_A j = Some A ->
  b_absorptance j' = Some absorb -> 0 < Eg <= 7 -> 0 <= A ->
  nondecreasing wl -> (forall l, In l wl -> 0 < l /\ 0 <= refl l) ->
  optics_ok Eg wl refl absorb.
Proof.
  intros j j' wl Eg A absorb refl H Hn HE HA Ha HEg HA0 Hwl Hl. unfold absorptance_db in H. rewrite Hn, HE, HA in H.
  cbn [attr bindR] in H. destruct (Req_EM_T Eg 0); [lra|]. injection H as <-. cbn in Ha. injection Ha as <-.
  split; [exact Hwl|]. intros l Il. destruct (Hl l Il) as [L R0]. split; [exact L|]. split; [exact R0|].
  assert (0 <= Rmin A 1 <= 1) by (split; [apply Rmin_glb; lra|apply Rmin_r]).
  unfold top_hat. destruct (Rlt_dec l _) as [B|B]; split; try lra.
  intros _. assert (Q := q_pos).
  assert (HC : q * 1240 * (99986 / 100000) < h * c * 10 ^ 9).
  { with_strategy transparent [h c q] unfold h, c, q. lra. }
  assert (B' : l * (Eg * 10 ^ 9) < 1240).
  { assert (0 < Eg * 10 ^ 9) by (apply Rmult_lt_0_compat; [lra|apply pow10_pos]).
    replace 1240 with (1240 / Eg / 10 ^ 9 * (Eg * 10 ^ 9)) by (field; lra). now apply Rmult_lt_compat_r. }
  apply (Rmult_lt_reg_r l); [exact L|]. replace (h * c / l * l) with (h * c) by (field; lra).
  assert (P9 := pow10_pos 9). apply (Rmult_lt_reg_r (10 ^ 9)); [exact P9|].
  destruct (Rle_dec Eg (/ 1000)) as [Z|Z].
  - assert (0 < h * c) by (apply Rmult_lt_0_compat; [apply h_pos|apply c_pos]).
    assert (0 < l * 10 ^ 9) by nra. assert (0 <= q * (l * 10 ^ 9)) by nra. nra.
  - apply (Rlt_trans _ (q * 1240 * (99986 / 100000))); [|exact HC].
    assert (X : (Eg - / 1000) <= Eg * (99986 / 100000)) by lra.
    assert (Y : 0 < l * 10 ^ 9) by nra.
    assert (q * (Eg - / 1000) * l * 10 ^ 9 <= q * (99986 / 100000 * (l * (Eg * 10 ^ 9)))).
    { replace (q * (Eg - / 1000) * l * 10 ^ 9) with (q * ((Eg - / 1000) * (l * 10 ^ 9))) by ring.
      apply Rmult_le_compat_l; [lra|]. replace (99986 / 100000 * (l * (Eg * 10 ^ 9))) with (Eg * (99986 / 100000) * (l * 10 ^ 9)) by ring.
      apply Rmult_le_compat_r; lra. }
    assert (q * (99986 / 100000 * (l * (Eg * 10 ^ 9))) < q * (99986 / 100000 * 1240)) by (apply Rmult_lt_compat_l; lra).
    replace (q * 1240 * (99986 / 100000)) with (q * (99986 / 100000 * 1240)) by ring. eapply Rle_lt_trans; eassumption.
Qed.

(** A case that meets the hypotheses of the theorems: the default absorptance. *)
Example ex_C173 : exists j' cur absorb refl,
  iv_db_planck ex_db 300 300 true 20 [3 / 10 ^ 7; 8 / 10 ^ 7] [3; 4] [0; 1; 2] = Ok (j', cur)
  /\ b_absorptance j' = Some absorb /\ b_reflected j' = Some refl
  /\ optics_ok (14 / 10) [3 / 10 ^ 7; 8 / 10 ^ 7] refl absorb
  /\ no_resonance (14 / 10) [3 / 10 ^ 7; 8 / 10 ^ 7] [0; 1; 2]
  /\ 0 < absorb (8 / 10 ^ 7).
Proof.
  assert (HJ : exists j1, absorptance_db ex_db = Ok j1 /\ b_absorptance j1 = Some (top_hat (Rmin (8 / 10) 1) (1240 / (14 / 10) / 10 ^ 9))
    /\ b_width j1 = None /\ b_reflected j1 = Some (fun _ => 0)).
  { unfold absorptance_db. cbn [b_Eg b_A b_absorptance attr bindR ex_db]. destruct (Req_EM_T (14 / 10) 0); [lra|].
    eexists. split; [reflexivity|]. cbn [with_absorptance b_absorptance b_width b_reflected ex_db]. auto. }
  destruct HJ as (j1 & E1 & E2 & E3 & E4).
  exists (with_eqe j1 (top_hat (Rmin (8 / 10) 1) (1240 / (14 / 10) / 10 ^ 9))). eexists.
  exists (top_hat (Rmin (8 / 10) 1) (1240 / (14 / 10) / 10 ^ 9)), (fun _ => 0).
  split; [|split; [exact E2|split; [exact E4|split; [|split]]]].
  - unfold iv_db_planck, qe_db. change (b_Eg ex_db) with (Some (14 / 10)). change (b_n ex_db) with (Some (35 / 10)).
    change (b_eqe ex_db) with (@None (R -> R)). cbn [attr bindR]. rewrite E1. cbn [bindR]. rewrite E2, E3. cbn [attr bindR].
    cbn [with_eqe b_eqe b_reflected b_absorptance]. rewrite E2, E4. cbn [attr bindR]. reflexivity.
  - apply (C173_default ex_db j1 _ (14 / 10) (8 / 10)); try assumption; try reflexivity; try lra.
    + intros i k Hik. destruct i as [|[|i]], k as [|[|k]]; cbn in *; try lra; try lia.
    + intros l [<-|[<-|[]]]; lra.
  - intros v l Hv Hl. with_strategy transparent [h c q] unfold h, c, q. unfold Rmin.
    destruct Hv as [<-|[<-|[<-|[]]]], Hl as [<-|[<-|[]]]; destruct (Rle_dec _ _); lra.
  - unfold top_hat. destruct (Rlt_dec _ _); [|lra]. unfold Rmin. destruct (Rle_dec _ _); lra.
Qed.

(** An absorptance given from outside with a tail below the gap: the emission becomes negative
    and the dark current falls with the voltage. *)
Lemma surface_integral_black : 1 <= surface_integral 2 0 1.
Proof.
  unfold surface_integral. cbn [Nat.sub seq map fold_left]. set (R1 := internal_R 0 _).
  assert (P := PI2_3_2). replace (1 - 1) with 0 by ring. replace (INR 2) with 2 by (cbn; ring).
  replace (2 * PI * (1 / 2 * (1 + R1 * 0) * (1 - 0) / (2 + 1) + 1 / 2 * (1 - R1) * (1 - 0) / (2 + 1)))
    with (PI / 3 * (1 + (1 - R1))) by field.
  assert (0 <= R1 <= 1).
  { apply internal_R_range; [lra|]. unfold linspace. cbn. lra. }
  assert (1 <= PI / 3) by lra. nra.
Qed.
Theorem C173_tail_refuted : exists j wl v j' a b absorb refl,
  iv_db_planck j 300 300 false 2 wl [] [0; v] = Ok (j', [Some a; Some b])
  /\ b_Eg j = Some 1 /\ b_absorptance j' = Some absorb /\ b_reflected j' = Some refl
  /\ nondecreasing wl /\ (forall l, In l wl -> 0 < l /\ refl l = 0 /\ 0 <= absorb l <= 1)
  /\ 0 < v < 1 /\ b < a.
Proof.
  set (j := {| b_Eg := Some 1; b_n := Some 1; b_A := Some 1; b_Rsh := None; b_width := None;
     b_absorptance := Some (fun _ => 1); b_eqe := Some (fun _ => 1); b_absorbed := None; b_reflected := Some (fun _ => 0); b_j01 := None |}).
  exists j, [1; 2], (/ 2), j.
  set (A := surface_integral 2 0 1). assert (HA := surface_integral_black). fold A in HA.
  assert (HQ : forall l, In l [1; 2] -> h * c / l < q * / 2).
  { intros l [<-|[<-|[]]]; with_strategy transparent [h c q] unfold h, c, q; lra. }
  assert (HP := h_pos). assert (CP := c_pos). assert (QP := q_pos). assert (KP := kb_pos).
  assert (HC : 0 < h * c) by now apply Rmult_lt_0_compat.
  assert (N0 : existsb (resonant 0) [1; 2] = false).
  { cbn [existsb]. unfold resonant. destruct (Req_EM_T (h * c / 1) _); [lra|]. destruct (Req_EM_T (h * c / 2) _); [lra|reflexivity]. }
  assert (N1 : existsb (resonant (/ 2)) [1; 2] = false).
  { assert (Q1 := HQ 1 ltac:(cbn; auto)). assert (Q2 := HQ 2 ltac:(cbn; auto)).
    cbn [existsb]. unfold resonant. destruct (Req_EM_T (h * c / 1) _); [lra|]. destruct (Req_EM_T (h * c / 2) _); [lra|reflexivity]. }
  set (K := 2 * q * 1 ^ 2 * c).
  set (I := fun v => K * np_trapz (map (fun p => planck_term 300 v (fst p) (snd p)) (combine [A; A] [1; 2])) [1; 2]).
  exists (I 0 + 0 / 10 ^ 14 - (0 + I 0)), (I (/ 2) + / 2 / 10 ^ 14 - (0 + I 0)), (fun _ => 1), (fun _ => 0).
  split; [|split; [reflexivity|split; [reflexivity|split; [reflexivity|split; [|split; [|split; [lra|]]]]]]].
  - unfold iv_db_planck. cbn [j b_Eg b_n b_eqe b_reflected b_absorptance b_Rsh attr bindR].
    assert (L0 : limited 1 0 = 0) by (unfold limited; destruct (Rlt_dec _ _); lra).
    assert (L1 : limited 1 (/ 2) = / 2) by (unfold limited; destruct (Rlt_dec _ _); lra).
    cbn [map]. fold A. rewrite L0, L1. unfold planck_emission. rewrite N0, N1. reflexivity.
  - intros i k Hik. destruct i as [|[|i]], k as [|[|k]]; cbn in *; try lra; try lia.
  - intros l [<-|[<-|[]]]; lra.
  - assert (T0 : forall l, In l [1; 2] -> 0 <= planck_term 300 0 A l).
    { intros l Hl. apply term_nonneg; try lra; destruct Hl as [<-|[<-|[]]]; lra. }
    assert (T1 : forall l, In l [1; 2] -> planck_term 300 (/ 2) A l <= - (A / l ^ 4)).
    { intros l Hl. unfold planck_term. set (E := exp _).
      assert (0 < E) by apply exp_pos. assert (E < 1).
      { unfold E. rewrite <- exp_0. apply exp_increasing. specialize (HQ l Hl).
        assert (0 < (q * / 2 - h * c / l) / (kb * 300)) by (apply Rdiv_lt_0_compat; lra).
        replace ((h * c / l - q * / 2) / (kb * 300)) with (- ((q * / 2 - h * c / l) / (kb * 300))) by (unfold Rdiv; ring). lra. }
      assert (0 < A / l ^ 4) by (apply Rdiv_lt_0_compat; [lra|]; destruct Hl as [<-|[<-|[]]]; lra).
      assert (/ (E - 1) <= - 1).
      { replace (/ (E - 1)) with (- / (1 - E)) by (field; lra). assert (1 <= / (1 - E)); [|lra].
        rewrite <- Rinv_1. apply Rinv_le_contravar; lra. }
      unfold Rdiv at 1. nra. }
    assert (P0 : 0 <= I 0).
    { unfold I, K. apply Rmult_le_pos; [nra|]. cbn [combine map fst snd np_trapz].
      assert (X1 := T0 1 ltac:(cbn; auto)). assert (X2 := T0 2 ltac:(cbn; auto)). lra. }
    assert (P1 : I (/ 2) <= - (q * c)).
    { unfold I, K. cbn [combine map fst snd np_trapz].
      assert (X1 := T1 1 ltac:(cbn; auto)). assert (X2 := T1 2 ltac:(cbn; auto)).
      assert (A / 1 ^ 4 = A) by field. assert (0 <= A / 2 ^ 4) by lra.
      assert (0 < q * c) by now apply Rmult_lt_0_compat.
      match goal with |- _ * ?S <= _ => assert (S <= - (1 / 2)) by lra; replace (2 * q * 1 ^ 2 * c) with (2 * (q * c)) by ring; set (SS := S) in *; clearbody SS end.
      nra. }
    assert (QC : / 2 / 10 ^ 14 < q * c) by (with_strategy transparent [c q] unfold c, q; lra).
    lra.
Qed.

(** Properties C36, C37, C38 and C79, C80 about the depletion approximation. *)
From Coq Require Import Reals String Ascii List Arith Bool Lra Lia.
From Coquelicot Require Import Coquelicot.
From Coq Require Import List.
From Verif Require Import Common PhysConst DepletionModel.
Import ListNotations.
Open Scope R_scope.
Open Scope list_scope.

(** * C36 *)
Definition no_widths (one : bool) : dep_attrs := {| j_one_sided := one; j_wn := None; j_wp := None |}.

Lemma div_lt_l a b c0 : 0 < c0 -> a < b -> a / c0 < b / c0.
Proof. intros. unfold Rdiv. apply Rmult_lt_compat_r; [now apply Rinv_0_lt_compat|easy]. Qed.
Lemma div_nonneg a b : 0 <= a -> 0 < b -> 0 <= a / b.
Proof. intros. unfold Rdiv. apply Rmult_le_pos; [easy|]. left. now apply Rinv_0_lt_compat. Qed.

Lemma arg_two es V Vbi Na Nd : 0 < es -> V <= Vbi -> 0 < Na -> 0 < Nd ->
  0 <= 2 * es * (Vbi - V) / q * (1 / Na + 1 / Nd).
Proof.
  intros. assert (0 < 1 / Na) by (apply Rdiv_lt_0_compat; lra). assert (0 < 1 / Nd) by (apply Rdiv_lt_0_compat; lra).
  apply Rmult_le_pos; [|lra]. apply div_nonneg; [|apply q_pos]. apply Rmult_le_pos; lra.
Qed.
Lemma arg_one es V Vbi N : 0 < es -> V <= Vbi -> 0 < N -> 0 <= 2 * es * (Vbi - V) / (q * N).
Proof. intros. apply div_nonneg; [apply Rmult_le_pos; lra|apply Rmult_lt_0_compat; [apply q_pos|easy]]. Qed.
Lemma ratio_pos a b : 0 < a -> 0 < b -> 0 < 1 + a / b.
Proof. intros. assert (0 < a / b) by now apply Rdiv_lt_0_compat. lra. Qed.

Lemma root_ge xi a : 0 <= xi -> 0 <= a -> xi <= sqrt (xi ^ 2 + a).
Proof.
  intros. rewrite <- (sqrt_pow2 xi) at 1 by easy. apply sqrt_le_1; try (assert (0 <= xi ^ 2) by apply pow2_ge_0; lra).
Qed.

Lemma wn_nonneg one es Vbi V Na Nd xi : 0 < es -> 0 < Na -> 0 < Nd -> 0 <= xi -> V <= Vbi ->
  0 <= wn_formula one es Vbi V Na Nd xi.
Proof.
  intros. unfold wn_formula. destruct one; [apply sqrt_pos|]. apply div_nonneg; [|now apply ratio_pos].
  assert (Hr := root_ge xi _ H2 (arg_two es V Vbi Na Nd H H3 H0 H1)). lra.
Qed.
Lemma wp_nonneg one es Vbi V Na Nd xi : 0 < es -> 0 < Na -> 0 < Nd -> 0 <= xi -> V <= Vbi ->
  0 <= wp_formula one es Vbi V Na Nd xi.
Proof.
  intros. unfold wp_formula. destruct one; [apply sqrt_pos|]. apply div_nonneg; [|now apply ratio_pos].
  assert (Hr := root_ge xi _ H2 (arg_two es V Vbi Na Nd H H3 H0 H1)). lra.
Qed.
Lemma arg_two_lt es V V' Vbi Na Nd : 0 < es -> V < V' -> 0 < Na -> 0 < Nd ->
  2 * es * (Vbi - V') / q * (1 / Na + 1 / Nd) < 2 * es * (Vbi - V) / q * (1 / Na + 1 / Nd).
Proof.
  intros. assert (0 < 1 / Na) by (apply Rdiv_lt_0_compat; lra). assert (0 < 1 / Nd) by (apply Rdiv_lt_0_compat; lra).
  apply Rmult_lt_compat_r; [lra|]. apply div_lt_l; [apply q_pos|]. apply Rmult_lt_compat_l; lra.
Qed.
Lemma root_lt es V V' Vbi Na Nd xi : 0 < es -> V < V' -> V' <= Vbi -> 0 < Na -> 0 < Nd ->
  sqrt (xi ^ 2 + 2 * es * (Vbi - V') / q * (1 / Na + 1 / Nd)) < sqrt (xi ^ 2 + 2 * es * (Vbi - V) / q * (1 / Na + 1 / Nd)).
Proof.
  intros. assert (0 <= xi ^ 2) by apply pow2_ge_0.
  assert (A := arg_two es V' Vbi Na Nd H H1 H2 H3). assert (B := arg_two_lt es V V' Vbi Na Nd H H0 H2 H3).
  apply sqrt_lt_1; lra.
Qed.
Lemma wn_dec one es Vbi V V' Na Nd xi : 0 < es -> 0 < Na -> 0 < Nd -> V < V' -> V' <= Vbi ->
  wn_formula one es Vbi V' Na Nd xi < wn_formula one es Vbi V Na Nd xi.
Proof.
  intros. unfold wn_formula. destruct one.
  - apply sqrt_lt_1; [apply arg_one; lra|apply arg_one; lra|]. apply div_lt_l; [apply Rmult_lt_0_compat; [apply q_pos|easy]|].
    apply Rmult_lt_compat_l; lra.
  - apply div_lt_l; [now apply ratio_pos|]. assert (R := root_lt es V V' Vbi Na Nd xi H H2 H3 H0 H1). lra.
Qed.
Lemma wp_dec one es Vbi V V' Na Nd xi : 0 < es -> 0 < Na -> 0 < Nd -> V < V' -> V' <= Vbi ->
  wp_formula one es Vbi V' Na Nd xi < wp_formula one es Vbi V Na Nd xi.
Proof.
  intros. unfold wp_formula. destruct one.
  - apply sqrt_lt_1; [apply arg_one; lra|apply arg_one; lra|]. apply div_lt_l; [apply Rmult_lt_0_compat; [apply q_pos|easy]|].
    apply Rmult_lt_compat_l; lra.
  - apply div_lt_l; [now apply ratio_pos|]. assert (R := root_lt es V V' Vbi Na Nd xi H H2 H3 H0 H1). lra.
Qed.
Lemma w_at_vbi one es Vbi Na Nd xi : 0 <= xi -> 0 < Na -> 0 < Nd ->
  wn_formula one es Vbi Vbi Na Nd xi = 0 /\ wp_formula one es Vbi Vbi Na Nd xi = 0.
Proof.
  intros. unfold wn_formula, wp_formula. assert (Hq := q_pos).
  replace (Vbi - Vbi) with 0 by ring. destruct one.
  - split; (etransitivity; [|apply sqrt_0]); f_equal; field; lra.
  - replace (xi ^ 2 + 2 * es * 0 / q * (1 / Na + 1 / Nd)) with (xi ^ 2) by (field; lra).
    rewrite sqrt_pow2 by easy. assert (A := ratio_pos Nd Na H1 H0). assert (B := ratio_pos Na Nd H0 H1).
    split; field; split; lra.
Qed.
Lemma balance es Vbi V Na Nd xi : 0 < Na -> 0 < Nd ->
  wn_formula false es Vbi V Na Nd xi * Nd = wp_formula false es Vbi V Na Nd xi * Na.
Proof. intros. unfold wn_formula, wp_formula. field. lra. Qed.

(** The voltage dropped over the fully depleted charges and the intrinsic layer
    (Poisson's equation integrated twice), written without reference to the model. *)
Definition potential_drop (es Na Nd xi wn wp : R) : R :=
  q * Nd * wn ^ 2 / (2 * es) + q * Na * wp ^ 2 / (2 * es) + q * Nd * wn * xi / es.

Lemma drop_ok es Vbi V Na Nd xi : 0 < es -> 0 < Na -> 0 < Nd -> V <= Vbi ->
  potential_drop es Na Nd xi (wn_formula false es Vbi V Na Nd xi) (wp_formula false es Vbi V Na Nd xi) = Vbi - V.
Proof.
  intros. assert (Hq := q_pos). unfold potential_drop, wn_formula, wp_formula.
  set (D := xi ^ 2 + 2 * es * (Vbi - V) / q * (1 / Na + 1 / Nd)).
  assert (HD : 0 <= D). { unfold D. assert (A := arg_two es V Vbi Na Nd H H2 H0 H1). assert (0 <= xi ^ 2) by apply pow2_ge_0. lra. }
  assert (HS := sqrt_sqrt D HD). set (s := sqrt D) in *.
  transitivity (q / (2 * es) * (Na * Nd / (Na + Nd)) * (s * s - xi ^ 2)).
  - field. lra.
  - rewrite HS. unfold D. field. lra.
Qed.

(** C36: the widths are non-negative, shrink with bias and vanish at the built-in
    voltage; with the two-sided expression and a common permittivity they balance the
    charge and drop exactly the voltage Vbi - V. *)
Theorem C36_depletion_widths_partial : forall one es_n es_p Vbi V Na Nd xi,
  0 < es_n -> 0 < es_p -> 0 < Na -> 0 < Nd -> 0 <= xi -> V <= Vbi ->
  let w v := get_depletion_widths (no_widths one) es_n es_p Vbi v Na Nd xi in
  (0 <= fst (w V) /\ 0 <= snd (w V)) /\
  (fst (w Vbi) = 0 /\ snd (w Vbi) = 0) /\
  (forall V', V < V' <= Vbi -> fst (w V') < fst (w V) /\ snd (w V') < snd (w V)) /\
  (one = false -> es_n = es_p ->
     fst (w V) * Nd = snd (w V) * Na /\ potential_drop es_n Na Nd xi (fst (w V)) (snd (w V)) = Vbi - V).
Proof.
  intros one es_n es_p Vbi V Na Nd xi Hn Hp HA HD Hx HV w. unfold w, get_depletion_widths, no_widths; cbn [fst snd j_one_sided j_wn j_wp or_attr].
  split; [split; [now apply wn_nonneg|now apply wp_nonneg]|].
  split; [split; apply w_at_vbi; easy|].
  split; [intros V' [A B]; split; [now apply wn_dec|now apply wp_dec]|].
  intros -> <-. split; [now apply balance|now apply drop_ok].
Qed.

Example C36_case : let w := get_depletion_widths (no_widths false) 1 1 3 1 2 3 (1/2) in
  fst w * 3 = snd w * 2 /\ 0 < fst w /\ fst (get_depletion_widths (no_widths false) 1 1 3 2 2 3 (1/2)) < fst w.
Proof.
  intros w.
  destruct (C36_depletion_widths_partial false 1 1 3 1 2 3 (1/2)) as (_ & Z & D & E); try lra.
  destruct (E eq_refl eq_refl) as [B _]. destruct (D 2) as [D1 _]; [lra|]. destruct (D 3) as [D3 _]; [lra|].
  repeat split; [exact B|rewrite (proj1 Z) in D3; exact D3|exact D1].
Qed.

(** The charge does not balance with the one-sided expressions, nor with the two-sided
    ones when the two layers have different permittivities. *)
Theorem C36_charge_balance_refuted :
  (exists es Vbi V Na Nd xi, 0 < es /\ 0 < Na /\ 0 < Nd /\ 0 <= xi /\ V <= Vbi /\
     let w := get_depletion_widths (no_widths true) es es Vbi V Na Nd xi in fst w * Nd <> snd w * Na) /\
  (exists es_n es_p Vbi V Na Nd xi, 0 < es_n /\ 0 < es_p /\ 0 < Na /\ 0 < Nd /\ 0 <= xi /\ V <= Vbi /\
     let w := get_depletion_widths (no_widths false) es_n es_p Vbi V Na Nd xi in fst w * Nd <> snd w * Na).
Proof.
  assert (Hq := q_pos). split.
  - exists (2 * q), 1, 0, 1, 4, 0. repeat split; try lra. cbn. unfold wn_formula, wp_formula.
    replace (2 * (2 * q) * (1 - 0) / (q * 4)) with (1 ^ 2) by (field; lra).
    replace (2 * (2 * q) * (1 - 0) / (q * 1)) with (2 ^ 2) by (field; lra).
    rewrite !sqrt_pow2 by lra. lra.
  - exists (q / 4), q, 1, 0, 1, 1, 0. repeat split; try lra. cbn. unfold wn_formula, wp_formula.
    replace (0 * (0 * 1) + 2 * (q / 4) * (1 - 0) / q * (1 / 1 + 1 / 1)) with (1 ^ 2) by (field; lra).
    replace (0 * (0 * 1) + 2 * q * (1 - 0) / q * (1 / 1 + 1 / 1)) with (2 ^ 2) by (field; lra).
    rewrite !sqrt_pow2 by lra. lra.
Qed.

(** When exactly the one-sided widths balance. *)
Theorem C36_one_sided_balance_partial : forall es_n es_p Vbi V Na Nd xi,
  0 < es_n -> 0 < es_p -> 0 < Na -> 0 < Nd -> V < Vbi ->
  let w := get_depletion_widths (no_widths true) es_n es_p Vbi V Na Nd xi in
  fst w * Nd = snd w * Na <-> es_n * Nd = es_p * Na.
Proof.
  intros es_n es_p Vbi V Na Nd xi Hn Hp HA HD HV. cbn. unfold wn_formula, wp_formula. assert (Hq := q_pos).
  set (k := 2 * (Vbi - V) / q). assert (Hk : 0 < k) by (unfold k; apply Rdiv_lt_0_compat; lra).
  replace (2 * es_n * (Vbi - V) / (q * Nd)) with (k * (es_n / Nd)) by (unfold k; field; lra).
  replace (2 * es_p * (Vbi - V) / (q * Na)) with (k * (es_p / Na)) by (unfold k; field; lra).
  assert (Pn : 0 < es_n / Nd) by (now apply Rdiv_lt_0_compat). assert (Pp : 0 < es_p / Na) by (now apply Rdiv_lt_0_compat).
  rewrite !sqrt_mult by lra. assert (Sk := sqrt_lt_R0 k Hk).
  assert (En : sqrt (es_n / Nd) * Nd = sqrt (es_n * Nd)).
  { rewrite <- (sqrt_pow2 Nd) at 2 by lra. rewrite <- sqrt_mult; [f_equal; field; lra|lra|apply pow2_ge_0]. }
  assert (Ep : sqrt (es_p / Na) * Na = sqrt (es_p * Na)).
  { rewrite <- (sqrt_pow2 Na) at 2 by lra. rewrite <- sqrt_mult; [f_equal; field; lra|lra|apply pow2_ge_0]. }
  rewrite !Rmult_assoc, En, Ep. split; intros E.
  - apply Rmult_eq_reg_l in E; [|lra]. apply sqrt_inj in E; [easy|apply Rmult_le_pos; lra|apply Rmult_le_pos; lra].
  - now rewrite E.
Qed.

Example C36_one_sided_case : let w := get_depletion_widths (no_widths true) 2 1 3 1 6 3 0 in fst w * 3 = snd w * 6.
Proof. apply (C36_one_sided_balance_partial 2 1 3 1 6 3 0); lra. Qed.

(** * C37 *)
(** A layer plays a role when its name, in any capitalisation, is that role. *)
Definition plays (r : string) (x : layer) : Prop := exists s, l_role x = Some s /\ lower s = r.
(** The doping type of a layer. *)
Definition n_type (x : layer) : Prop := dop (l_Na x) < dop (l_Nd x).

Lemma find_emitter_ok l : forall k idx o, find_emitter l k = Ok (idx, o) ->
  match o with
  | Some e => exists i, idx = (k + i)%nat /\ nth_error l i = Some e /\ plays "emitter" e /\
                (forall j y, (j < i)%nat -> nth_error l j = Some y -> ~ plays "emitter" y)
  | None => idx = (k + length l)%nat
  end.
Proof.
  induction l as [|x r IH]; intros k idx o; cbn.
  - intros [= <- <-]. lia.
  - destruct (l_role x) as [s|] eqn:E; [|discriminate]. destruct (String.eqb (lower s) "emitter") eqn:Q.
    + intros [= <- <-]. exists 0%nat. repeat split; [lia|exists s; split; [easy|now apply String.eqb_eq]|lia].
    + intros H. specialize (IH _ _ _ H). destruct o as [e|]; [|lia].
      destruct IH as (i & -> & N & P & F). exists (S i). split; [lia|]. split; [easy|]. split; [easy|].
      intros [|j] y L; cbn; [intros [= <-]|intros M; apply (F j y); [lia|easy]].
      intros (s' & E' & L'). rewrite E in E'. injection E' as <-. apply String.eqb_neq in Q. easy.
Qed.

(** Every layer before the emitter must have a role, otherwise [.lower()] raises. *)
Lemma find_emitter_complete l : forall k i e, nth_error l i = Some e -> plays "emitter" e ->
  (forall j y, (j < i)%nat -> nth_error l j = Some y -> l_role y <> None /\ ~ plays "emitter" y) ->
  find_emitter l k = Ok ((k + i)%nat, Some e).
Proof.
  induction l as [|x r IH]; intros k [|i] e; cbn; try discriminate.
  - intros [= ->] (s & -> & L) _. apply String.eqb_eq in L. rewrite L. do 2 f_equal. lia.
  - intros N P F. destruct (F 0%nat x) as [R Q]; [lia|easy|]. destruct (l_role x) as [s|] eqn:E; [|easy].
    destruct (String.eqb (lower s) "emitter") eqn:K; [exfalso; apply Q; exists s; split; [easy|now apply String.eqb_eq]|].
    rewrite (IH (S k) i e N P); [do 2 f_equal; lia|]. intros j y L M. apply (F (S j) y); [lia|easy].
Qed.

(** What a successful result means, with the roles only. *)
Definition found_ok (l : list layer) (f : layers_found) : Prop :=
  exists e b,
    nth_error l (f_top f) = Some e /\ plays "emitter" e /\
    (forall j y, (j < f_top f)%nat -> nth_error l j = Some y -> ~ plays "emitter" y) /\
    nth_error l (f_bottom f) = Some b /\ plays "base" b /\
    (f_pol f = NP <-> n_type e) /\
    (f_pol f = PN -> f_p f = e /\ f_n f = b) /\ (f_pol f = NP -> f_n f = e /\ f_p f = b) /\
    match f_i f with
    | None => f_bottom f = (f_top f + 1)%nat
    | Some i => f_bottom f = (f_top f + 2)%nat /\ nth_error l (f_top f + 1) = Some i /\ plays "intrinsic" i
    end.

Lemma pol_spec e : emitter_polarity e = NP <-> n_type e.
Proof. unfold emitter_polarity, n_type. destruct Rlt_dec; split; congruence || lra. Qed.
Lemma regions_pn e b : emitter_polarity e = PN -> fst (regions (emitter_polarity e) e b) = e /\ snd (regions (emitter_polarity e) e b) = b.
Proof. now intros ->. Qed.
Lemma regions_np e b : emitter_polarity e = NP -> snd (regions (emitter_polarity e) e b) = e /\ fst (regions (emitter_polarity e) e b) = b.
Proof. now intros ->. Qed.

(** C37: the layers returned are the first emitter and the base after it, with at most
    an intrinsic layer between; exactly the lists of that form are accepted. *)
Theorem C37_identify_layers_partial : forall l,
  (forall f, identify_layers l = Ok f -> found_ok l f) /\
  (forall i e, nth_error l i = Some e -> plays "emitter" e ->
     (forall j y, (j < i)%nat -> nth_error l j = Some y -> l_role y <> None /\ ~ plays "emitter" y) ->
     ((exists b, nth_error l (i + 1) = Some b /\ plays "base" b) \/
      (exists m b, nth_error l (i + 1) = Some m /\ plays "intrinsic" m /\ nth_error l (i + 2) = Some b /\ plays "base" b)) ->
     exists f, identify_layers l = Ok f /\ f_top f = i).
Proof.
  intros l. split.
  - intros f. unfold identify_layers. destruct (find_emitter l 0) as [[idx em]|] eqn:E; [|discriminate].
    cbn [bindR]. apply find_emitter_ok in E. unfold get_layer at 1.
    destruct (nth_error l (idx + 1)) as [nx|] eqn:N1; [|discriminate]. cbn [bindR]. unfold role_of at 1.
    destruct (l_role nx) as [s1|] eqn:R1; [|discriminate]. cbn [bindR].
    destruct em as [e|]; [|discriminate]. destruct E as (i & -> & Ne & Pe & Fe). rewrite Nat.add_0_l in *.
    destruct (String.eqb (lower s1) "intrinsic") eqn:I1.
    + unfold get_layer. destruct (nth_error l (i + 2)) as [b|] eqn:N2; [|discriminate]. cbn [bindR]. unfold role_of.
      destruct (l_role b) as [s2|] eqn:R2; [|discriminate]. cbn [bindR]. destruct (String.eqb (lower s2) "base") eqn:B2; [|discriminate].
      intros [= <-]. exists e, b. cbn. split; [easy|]. split; [easy|]. split; [easy|]. split; [easy|].
      split; [exists s2; split; [easy|now apply String.eqb_eq]|]. split; [apply pol_spec|].
      split; [apply regions_pn|]. split; [apply regions_np|]. split; [easy|]. split; [easy|].
      exists s1. split; [easy|now apply String.eqb_eq].
    + destruct (String.eqb (lower s1) "base") eqn:B1; [|discriminate].
      intros [= <-]. exists e, nx. cbn. split; [easy|]. split; [easy|]. split; [easy|]. split; [easy|].
      split; [exists s1; split; [easy|now apply String.eqb_eq]|]. split; [apply pol_spec|].
      split; [apply regions_pn|]. split; [apply regions_np|easy].
  - intros i e N P F H. unfold identify_layers. rewrite (find_emitter_complete l 0 i e N P F). cbn [bindR]. rewrite Nat.add_0_l.
    destruct H as [(b & Nb & (s & R & L))|(m & b & Nm & (s & R & L) & Nb & (s2 & R2 & L2))].
    + unfold get_layer. rewrite Nb. cbn [bindR]. unfold role_of. rewrite R. cbn [bindR]. rewrite L. cbn. eexists. split; [reflexivity|easy].
    + unfold get_layer. rewrite Nm. cbn [bindR]. unfold role_of. rewrite R. cbn [bindR]. rewrite L, Nb. cbn [bindR String.eqb Ascii.eqb Bool.eqb].
      rewrite R2. cbn [bindR]. rewrite L2. cbn. eexists. split; [reflexivity|easy].
Qed.

Definition lay (r : string) (na nd : option R) : layer := {| l_role := Some r; l_Na := na; l_Nd := nd; l_width := 1 |}.
Example C37_case : exists f, identify_layers
    [lay "window" None (Some 5); lay "Emitter" None (Some 2); lay "INTRINSIC" None None; lay "Base" (Some 1) None; lay "bsf" (Some 9) None] = Ok f /\
    f_top f = 1%nat /\ f_bottom f = 3%nat /\ f_pol f = NP /\ f_n f = lay "Emitter" None (Some 2).
Proof.
  set (l := [_; _; _; _; _]).
  destruct (proj2 (C37_identify_layers_partial l) 1%nat (lay "Emitter" None (Some 2))) as (f & E & T).
  - easy.
  - exists "Emitter"%string. easy.
  - intros [|j] y L; cbn; [|lia]. intros [= <-]. split; [easy|]. intros (s & [= <-] & K). discriminate K.
  - right. exists (lay "INTRINSIC" None None), (lay "Base" (Some 1) None). repeat split; try easy; [now exists "INTRINSIC"%string|now exists "Base"%string].
  - exists f. split; [easy|]. destruct (proj1 (C37_identify_layers_partial l) f E) as (e & b & Ne & _ & _ & _ & _ & Pol & _ & Np & I).
    rewrite T in *. cbn in Ne. injection Ne as <-. assert (f_pol f = NP) as K by (apply Pol; unfold n_type; cbn; lra).
    destruct (Np K) as [Hn _]. split; [easy|]. split; [|easy].
    destruct (f_i f) as [m|]; [easy|]. exfalso.
    unfold identify_layers in E. cbn in E. injection E as <-. discriminate I.
Qed.

(** The polarity is that of the emitter alone: a junction whose two layers are both
    n-type is accepted, and its "p region" is n-type. *)
Theorem C37_same_type_refuted : exists l f, identify_layers l = Ok f /\ n_type (f_p f) /\ n_type (f_n f).
Proof.
  eexists [lay "emitter" None (Some 1); lay "base" None (Some 2)], _. split.
  - unfold identify_layers. cbn. reflexivity.
  - cbn. unfold emitter_polarity. cbn. destruct (Rlt_dec 0 1) as [H|H]; [|lra]. cbn. unfold n_type. cbn. lra.
Qed.

(** A list that is refused is never of the accepted form, and the exception is one of
    three kinds. *)
Theorem C37_refusals : forall l e, identify_layers l = Err e ->
  e = RuntimeError \/ e = IndexError \/ e = AttributeError.
Proof.
  intros l x. unfold identify_layers. destruct (find_emitter l 0) as [[idx em]|e0] eqn:E.
  - cbn [bindR]. apply find_emitter_ok in E. unfold get_layer at 1.
    destruct (nth_error l (idx + 1)) as [nx|] eqn:N1; [|cbn; intros [= <-]; auto]. cbn [bindR]. unfold role_of at 1.
    destruct (l_role nx) as [s1|]; [|cbn; intros [= <-]; auto]. cbn [bindR].
    destruct em as [e|].
    + destruct (String.eqb (lower s1) "intrinsic").
      * unfold get_layer. destruct (nth_error l (idx + 2)) as [b|]; [|cbn; intros [= <-]; auto]. cbn [bindR]. unfold role_of.
        destruct (l_role b) as [s2|]; [|cbn; intros [= <-]; auto]. cbn [bindR]. destruct (String.eqb (lower s2) "base"); [discriminate|intros [= <-]; auto].
      * destruct (String.eqb (lower s1) "base"); [discriminate|intros [= <-]; auto].
    + assert (nth_error l (idx + 1) <> None) as K by (rewrite N1; discriminate). apply nth_error_Some in K. lia.
  - cbn. intros [= <-]. right. right. clear -E. revert E. generalize 0%nat. induction l as [|y r IH]; intros k; cbn; [discriminate|].
    destruct (l_role y); [|intros [= <-]; easy]. destruct (String.eqb _ _); [discriminate|apply IH].
Qed.
Example C37_refusals_case : identify_layers [lay "emitter" (Some 1) None; lay "window" None None] = Err RuntimeError /\
  identify_layers [lay "base" (Some 1) None; lay "base" None None] = Err IndexError.
Proof. split; reflexivity. Qed.

(** Properties of the light sources: C49, C50, C51, C85, C86, C87. *)
From Coquelicot Require Import Coquelicot.
From Coq Require Import Reals String Lra Lia Bool Arith List.
From Verif Require Import Common MatStrModel UnitsModel UnitsProps InterpModel InterpProps NumModel NpModel PhysConst LightModel.
Import ListNotations.
Open Scope R_scope.
Open Scope list_scope.

(** * Specification of the units *)

(** The five abscissas. *)
Inductive coord := Nm | M | EV | J | Hz.
(** Wavelength in nm of an abscissa, photon energy in J of a wavelength in nm. *)
Definition lam (u : coord) (x : R) : R :=
  match u with
  | Nm => x
  | M => x * 10 ^ 9
  | EV => h * c / (q * x) * 10 ^ 9
  | J => h * c / x * 10 ^ 9
  | Hz => c / x * 10 ^ 9
  end.
Definition photon_energy (l : R) : R := h * c / (l / 10 ^ 9).
Definition power_name (u : coord) : string :=
  match u with
  | Nm => "power_density_per_nm" | M => "power_density_per_m" | EV => "power_density_per_ev"
  | J => "power_density_per_joule" | Hz => "power_density_per_hz"
  end.
Definition photon_name (u : coord) : string :=
  match u with
  | Nm => "photon_flux_per_nm" | M => "photon_flux_per_m" | EV => "photon_flux_per_ev"
  | J => "photon_flux_per_joule" | Hz => "photon_flux_per_hz"
  end.

(** * Lists *)

Lemma each_map f (g : R -> R) l : Forall (fun v => 0 < v) l -> (forall v, 0 < v -> f v = Ok (g v)) ->
  each f l = Ok (map g l).
Proof. intros Hl Hf. apply each_spec. rewrite Forall_forall in Hl. auto. Qed.
Lemma each2_map f (a b k : R -> R) l : Forall (fun v => 0 < v) l -> (forall v, 0 < v -> f (a v) (b v) = Ok (k v)) ->
  each2 f (map a l) (map b l) = Ok (map k l).
Proof.
  intros Hl Hf. induction Hl as [|v l Hv _ IH]; [reflexivity|]. cbn [map each2]. rewrite Hf by assumption.
  cbn [bindR]. rewrite IH. reflexivity.
Qed.
Lemma map_combine_self {A B D} (F : A -> B -> D) (g : A -> B) l :
  map (fun p => F (snd p) (fst p)) (combine (map g l) l) = map (fun v => F v (g v)) l.
Proof. induction l as [|v l IH]; [reflexivity|]. cbn [map combine fst snd]. now rewrite IH. Qed.
Lemma map_pos (f : R -> R) l : Forall (fun v => 0 < v) l -> (forall v, 0 < v -> 0 < f v) ->
  Forall (fun v => 0 < v) (map f l).
Proof. intros Hl Hf. induction Hl; constructor; auto. Qed.
Lemma rev_pos (l : list R) : Forall (fun v => 0 < v) l -> Forall (fun v => 0 < v) (rev l).
Proof. intros H. rewrite Forall_forall in *. intros v Hv. apply H. now apply in_rev. Qed.
Lemma map_ext_pos (f g : R -> R) l : Forall (fun v => 0 < v) l -> (forall v, 0 < v -> f v = g v) -> map f l = map g l.
Proof. intros Hl H. induction Hl as [|v l Hv _ IH]; [reflexivity|]. cbn [map]. now rewrite H, IH. Qed.

Section Units.
Context (fl : text -> option R) (tb : table) (K : knows tb q em9) (Hf : reads_minus_one fl).

Lemma em9_pos : 0 < em9. Proof. unfold em9. lra. Qed.
Lemma e9_em9 : e9 * em9 = 1. Proof. unfold e9, em9. lra. Qed.
Lemma ten9 : 10 ^ 9 = e9. Proof. unfold e9. lra. Qed.
Definition Kev : R := h * c / (q * em9).
Definition Khz : R := c / em9.
Lemma Kev_pos : 0 < Kev.
Proof. apply Rdiv_lt_0_compat; apply Rmult_lt_0_compat; auto using h_pos, c_pos, q_pos, em9_pos. Qed.
Lemma Khz_pos : 0 < Khz.
Proof. apply Rdiv_lt_0_compat; auto using c_pos, em9_pos. Qed.

Lemma eVnm_v v : 0 < v -> eVnm fl h c tb v = Ok (Kev / v).
Proof.
  intros Hv. unfold eVnm. rewrite (as_eV _ _ _ _ _ K), (as_nm _ _ _ _ _ K). cbn [bindR].
  rewrite divide_ok by lra. f_equal. unfold Kev. pose proof q_pos. pose proof em9_pos. field. lra.
Qed.
Lemma nmHz_v v : 0 < v -> nmHz fl c tb v = Ok (Khz / v).
Proof.
  intros Hv. unfold nmHz. rewrite (as_nms _ _ _ _ _ Hf K). cbn [bindR]. apply divide_ok. lra.
Qed.
Lemma nmJ_v v : 0 < v -> nmJ fl h c tb v = Ok (Kev * q / v).
Proof.
  intros Hv. unfold nmJ. rewrite (si_nm _ _ _ _ _ K). cbn [bindR]. pose proof em9_pos. pose proof q_pos.
  rewrite divide_ok.
  - f_equal. unfold Kev. field. lra.
  - apply Rmult_integral_contrapositive_currified; lra.
Qed.
Lemma ev_v x y : Forall (fun v => 0 < v) x -> length y = length x ->
  spectral_nm_ev fl h c tb x y =
  Ok (rev (map (fun v => Kev / v) x), rev (map (fun p => fst p * snd p ^ 2 / Kev) (combine y x))).
Proof.
  intros H0 L0. unfold spectral_nm_ev.
  destruct (spectral_generic (eVnm fl h c tb) Kev x y Kev_pos) as [E1 E2]; try assumption.
  { intros v Hv. unfold eVnm. rewrite (as_eV _ _ _ _ _ K), (as_nm _ _ _ _ _ K). cbn [bindR].
    rewrite divide_ok by assumption. f_equal. unfold Kev. pose proof q_pos. pose proof em9_pos. field. lra. }
  rewrite E1. cbn [bindR]. rewrite (as_eVs _ _ _ _ _ K), (as_nms _ _ _ _ _ Hf K). cbn [bindR].
  replace (h / q * (c / em9)) with Kev by (unfold Kev; pose proof q_pos; pose proof em9_pos; field; lra).
  rewrite E2. reflexivity.
Qed.
Lemma hz_v x y : Forall (fun v => 0 < v) x -> length y = length x ->
  spectral_nm_hz fl c tb x y =
  Ok (rev (map (fun v => Khz / v) x), rev (map (fun p => fst p * snd p ^ 2 / Khz) (combine y x))).
Proof.
  intros H0 L0. unfold spectral_nm_hz.
  destruct (spectral_generic (nmHz fl c tb) Khz x y Khz_pos) as [E1 E2]; try assumption.
  { intros v Hv. unfold nmHz. rewrite (as_nms _ _ _ _ _ Hf K). apply divide_ok, Hv. }
  rewrite E1. cbn [bindR]. rewrite (as_nms _ _ _ _ _ Hf K). cbn [bindR]. fold Khz. rewrite E2. reflexivity.
Qed.

(** Magnitude of the derivative of [lam]. *)
Definition jac (u : coord) (x : R) : R :=
  match u with
  | Nm => 1 | M => e9 | EV => Kev / x ^ 2 | J => Kev * q / x ^ 2 | Hz => Khz / x ^ 2
  end.
Lemma lam_form u x : 0 < x ->
  lam u x = match u with Nm => x | M => x * e9 | EV => Kev / x | J => Kev * q / x | Hz => Khz / x end.
Proof.
  intros Hx. pose proof q_pos. unfold lam, Kev, Khz, em9. destruct u; try reflexivity; try (unfold e9; lra); field; lra.
Qed.
Lemma lam_pos u x : 0 < x -> 0 < lam u x.
Proof.
  intros Hx. rewrite (lam_form u x Hx). pose proof Kev_pos. pose proof Khz_pos. pose proof q_pos. unfold e9.
  destruct u; [assumption|lra| | |]; apply Rdiv_lt_0_compat; first [assumption|now apply Rmult_lt_0_compat].
Qed.
Lemma jac_pos u x : 0 < x -> 0 < jac u x.
Proof.
  intros Hx. pose proof Kev_pos. pose proof Khz_pos. pose proof q_pos. pose proof (pow_lt x 2 Hx). unfold e9, jac.
  destruct u; [lra|unfold e9; lra| | |]; apply Rdiv_lt_0_compat; first [assumption|now apply Rmult_lt_0_compat].
Qed.
Lemma lam_derive u x : 0 < x -> exists d, is_derive (lam u) x d /\ Rabs d = jac u x.
Proof.
  intros Hx. pose proof Kev_pos as P1. pose proof Khz_pos as P2. pose proof q_pos. pose proof em9_pos. pose proof (pow_lt x 2 Hx).
  assert (Habs : forall a, 0 < a -> Rabs (- a) = a) by (intros a Ha; rewrite Rabs_Ropp; apply Rabs_pos_eq; lra).
  destruct u.
  - exists 1. split; [apply (is_derive_id x)|]. simpl. apply Rabs_pos_eq. lra.
  - exists e9. split; [unfold lam, e9; auto_derive; [trivial|ring]|]. simpl. apply Rabs_pos_eq. unfold e9. lra.
  - exists (- (Kev / x ^ 2)). split.
    + unfold lam. auto_derive; [apply Rmult_integral_contrapositive_currified; lra|]. unfold Kev, em9. field. lra.
    + apply Habs. now apply Rdiv_lt_0_compat.
  - exists (- (Kev * q / x ^ 2)). split.
    + unfold lam. auto_derive; [lra|]. unfold Kev, em9. field. lra.
    + apply Habs. apply Rdiv_lt_0_compat; [|assumption]. now apply Rmult_lt_0_compat.
  - exists (- (Khz / x ^ 2)). split.
    + unfold lam. auto_derive; [lra|]. unfold Khz, em9. field. lra.
    + apply Habs. now apply Rdiv_lt_0_compat.
Qed.

(** * The converters *)

Definition powers (u : coord) (g : R -> R) (x : list R) : list R := map (fun v => g (lam u v) * jac u v) x.
Definition photons (u : coord) (g : R -> R) (x : list R) : list R :=
  map (fun v => g (lam u v) * jac u v / photon_energy (lam u v)) x.

Lemma reversed_ev k (s : R -> res R) g (f : R -> res R) x : 0 < k -> Forall (fun v => 0 < v) x ->
  (forall v, 0 < v -> s v = Ok (g v)) -> (forall v, 0 < v -> f v = Ok (k / v)) ->
  exists w y, each f x = Ok w /\ each s (rev w) = Ok y /\
    spectral_nm_ev fl h c tb (rev w) y =
      Ok (map (fun v => Kev / (k / v)) x, map (fun v => g (k / v) * (k / v) ^ 2 / Kev) x) /\
    spectral_nm_hz fl c tb (rev w) y =
      Ok (map (fun v => Khz / (k / v)) x, map (fun v => g (k / v) * (k / v) ^ 2 / Khz) x).
Proof.
  intros Hk Hx Hs Hfx. exists (map (fun v => k / v) x), (map g (rev (map (fun v => k / v) x))).
  split; [now apply each_map|].
  assert (Hw : Forall (fun v => 0 < v) (rev (map (fun v => k / v) x))).
  { apply rev_pos, map_pos; [assumption|]. intros v Hv. now apply Rdiv_lt_0_compat. }
  split; [now apply each_map|].
  assert (E : forall Q, rev (map (fun p => fst p * snd p ^ 2 / Q) (combine (map g (rev (map (fun v => k / v) x))) (rev (map (fun v => k / v) x)))) =
    map (fun v => g (k / v) * (k / v) ^ 2 / Q) x).
  { intros Q. rewrite (map_combine_self (fun v b => b * v ^ 2 / Q) g), <- map_rev, rev_involutive. now rewrite map_map. }
  assert (E2 : forall Q, rev (map (fun v => Q / v) (rev (map (fun v => k / v) x))) = map (fun v => Q / (k / v)) x).
  { intros Q. rewrite <- map_rev, rev_involutive. now rewrite map_map. }
  rewrite ev_v, hz_v by (try assumption; now rewrite map_length). rewrite !E, !E2. auto.
Qed.

Lemma hc_pos : 0 < h * c. Proof. apply Rmult_lt_0_compat; auto using h_pos, c_pos. Qed.
Lemma pe_pos l : 0 < l -> 0 < photon_energy l.
Proof. intros H. apply Rdiv_lt_0_compat; [apply hc_pos|lra]. Qed.

Lemma converter_values u s g x : Forall (fun v => 0 < v) x -> (forall v, 0 < v -> s v = Ok (g v)) ->
  exists cp cf, find_name (converters fl tb) (power_name u) = Some cp /\
    find_name (converters fl tb) (photon_name u) = Some cf /\
    cp s x = Ok (powers u g x) /\ cf s x = Ok (photons u g x).
Proof.
  intros Hx Hs. pose proof h_pos as Hh. pose proof c_pos as Hc. pose proof q_pos as Hq. pose proof em9_pos as Hn.
  pose proof Kev_pos as P1. pose proof Khz_pos as P2. pose proof hc_pos as Hhc.
  destruct u; eexists; eexists; (split; [reflexivity|]); (split; [reflexivity|]).
  - assert (E : each s x = Ok (map g x)) by now apply each_map. split.
    + unfold power_density_per_nm. rewrite E. f_equal. apply map_ext_pos; [assumption|]. intros v Hv. cbn. ring.
    + unfold photon_flux_per_nm. rewrite E. cbn [bindR].
      rewrite (each_map _ (fun v => c * h * e9 / v)) by (try assumption; intros v Hv; apply divide_ok; lra). cbn [bindR].
      apply each2_map; [assumption|]. intros v Hv. unfold e9. rewrite divide_ok.
      * f_equal. unfold photon_energy, lam, jac. field. lra.
      * apply Rgt_not_eq. apply Rdiv_lt_0_compat; [|assumption]. apply Rmult_lt_0_compat; [nra|lra].
  - assert (E : each s (map (fun v => v * e9) x) = Ok (map (fun v => g (v * e9)) x)).
    { rewrite (each_map _ g); [now rewrite map_map| |assumption]. apply map_pos; [assumption|]. intros; unfold e9; lra. }
    split.
    + unfold power_density_per_m. rewrite E. cbn [bindR]. rewrite map_map. f_equal. apply map_ext_pos; [assumption|].
      intros v Hv. rewrite lam_form by assumption. reflexivity.
    + unfold photon_flux_per_m. rewrite E. cbn [bindR].
      rewrite (each_map _ (fun v => c * h / v)) by (try assumption; intros v Hv; apply divide_ok; lra). cbn [bindR].
      rewrite (each2_map _ _ _ (fun v => g (v * e9) / (c * h / v))); [|assumption|].
      * cbn [bindR]. rewrite map_map. f_equal. apply map_ext_pos; [assumption|]. intros v Hv.
        rewrite lam_form by assumption. unfold photon_energy, jac, e9. field. lra.
      * intros v Hv. apply divide_ok. apply Rgt_not_eq. apply Rdiv_lt_0_compat; [nra|assumption].
  - destruct (reversed_ev Kev s g (eVnm fl h c tb) x P1 Hx Hs eVnm_v) as (w & y & E1 & E2 & E3 & _). split.
    + unfold power_density_per_ev. rewrite E1. cbn [bindR]. rewrite E2. cbn [bindR]. rewrite E3. cbn [bindR snd].
      f_equal. apply map_ext_pos; [assumption|]. intros v Hv. rewrite lam_form by assumption. unfold jac. field. lra.
    + unfold photon_flux_per_ev. rewrite E1. cbn [bindR]. rewrite E2. cbn [bindR]. rewrite E3. cbn [bindR snd].
      rewrite <- (map_id x) at 2. apply each2_map; [assumption|]. intros v Hv.
      assert (0 < q * v) by now apply Rmult_lt_0_compat.
      rewrite divide_ok by lra. f_equal. rewrite lam_form by assumption. unfold photon_energy, jac, Kev, em9. field. repeat split; lra.
  - assert (P3 : 0 < Kev * q) by now apply Rmult_lt_0_compat.
    destruct (reversed_ev (Kev * q) s g (nmJ fl h c tb) x P3 Hx Hs nmJ_v) as (w & y & E1 & E2 & E3 & _). split.
    + unfold power_density_per_joule. rewrite E1. cbn [bindR]. rewrite E2. cbn [bindR]. rewrite E3. cbn [bindR snd].
      rewrite map_map. f_equal. apply map_ext_pos; [assumption|]. intros v Hv. rewrite lam_form by assumption. unfold jac. field. lra.
    + unfold photon_flux_per_joule. rewrite E1. cbn [bindR]. rewrite E2. cbn [bindR]. rewrite E3. cbn [bindR snd].
      rewrite <- (map_id x) at 2. apply each2_map; [assumption|]. intros v Hv.
      assert (0 < q * v) by now apply Rmult_lt_0_compat.
      rewrite divide_ok by lra. f_equal. rewrite lam_form by assumption. unfold photon_energy, jac, Kev, em9. field. repeat split; lra.
  - destruct (reversed_ev Khz s g (nmHz fl c tb) x P2 Hx Hs nmHz_v) as (w & y & E1 & E2 & _ & E3). split.
    + unfold power_density_per_hz. rewrite E1. cbn [bindR]. rewrite E2. cbn [bindR]. rewrite E3. cbn [bindR snd].
      f_equal. apply map_ext_pos; [assumption|]. intros v Hv. rewrite lam_form by assumption. unfold jac. field. lra.
    + unfold photon_flux_per_hz. rewrite E1. cbn [bindR]. rewrite E2. cbn [bindR]. rewrite E3. cbn [bindR fst snd].
      apply each2_map; [assumption|]. intros v Hv.
      assert (0 < h * (Khz / (Khz / v))).
      { apply Rmult_lt_0_compat; [assumption|]. replace (Khz / (Khz / v)) with v by (field; lra). assumption. }
      rewrite divide_ok by lra. f_equal. rewrite lam_form by assumption. unfold photon_energy, jac, Khz, em9. field. repeat split; lra.
Qed.
End Units.

(** C49: for every power spectrum [g] (W/m2/nm at positive wavelengths), every one of
    the five abscissas and every array of positive abscissa values, the power
    converter gives, at each value, the spectrum at the corresponding wavelength
    times the magnitude of the derivative of the wavelength with respect to the
    abscissa, and the photon converter gives that divided by the photon energy. *)
Theorem C49_output_units :
  forall fl tb, knows tb q (/ 10 ^ 9) -> reads_minus_one fl ->
  forall (s : R -> res R) (g : R -> R), (forall v, 0 < v -> s v = Ok (g v)) ->
  forall u x, Forall (fun v => 0 < v) x ->
  exists cp cf P F,
    find_name (converters fl tb) (power_name u) = Some cp /\
    find_name (converters fl tb) (photon_name u) = Some cf /\
    cp s x = Ok P /\ cf s x = Ok F /\ length P = length x /\ length F = length x /\
    forall i v, nth_error x i = Some v ->
      exists p f d, nth_error P i = Some p /\ nth_error F i = Some f /\
        is_derive (lam u) v d /\ p = g (lam u v) * Rabs d /\ p = f * photon_energy (lam u v).
Proof.
  intros fl tb K Hf s g Hs u x Hx.
  assert (K' : knows tb q em9) by (replace em9 with (/ 10 ^ 9) by (unfold em9; lra); exact K).
  destruct (converter_values fl tb K' Hf u s g x Hx Hs) as (cp & cf & E1 & E2 & E3 & E4).
  exists cp, cf, (powers u g x), (photons u g x). unfold powers, photons.
  split; [assumption|]. split; [assumption|]. split; [assumption|]. split; [assumption|].
  split; [apply map_length|]. split; [apply map_length|].
  intros i v Hi. assert (Hv : 0 < v). { rewrite Forall_forall in Hx. eapply Hx, nth_error_In, Hi. }
  destruct (lam_derive u v Hv) as (d & D1 & D2).
  eexists _, _, d. rewrite !nth_error_map', Hi. cbn [option_map].
  split; [reflexivity|]. split; [reflexivity|]. split; [assumption|]. split; [now rewrite D2|].
  pose proof (pe_pos _ (lam_pos u v Hv)). field. lra.
Qed.
Print Assumptions C49_output_units.

Definition q_table : table := [(t "eV", q); (t "nm", / 10 ^ 9); (t "s", 1)].
Lemma q_known : knows q_table q (/ 10 ^ 9).
Proof. unfold knows. repeat split; try reflexivity; [apply q_pos|lra]. Qed.
Example C49_case :
  knows q_table q (/ 10 ^ 9) /\ reads_minus_one ex_float /\
  (forall v, 0 < v -> (fun v => Ok (v / 500)) v = Ok ((fun v => v / 500) v)) /\
  Forall (fun v => 0 < v) [/ 2; 1; 3].
Proof. split; [exact q_known|]. split; [reflexivity|]. split; [reflexivity|]. repeat constructor; lra. Qed.

(** * C50: custom spectra *)

(** The pairs (name of input units, name of output units) of the same quantity,
    except photon flux per Hz. *)
Definition sym_units (photon : bool) (u : coord) : string * string :=
  (if photon then
     match u with Nm => "photon_flux_per_nm" | M => "photon_flux_per_m" | EV => "photon_flux_per_eV"
     | J => "photon_flux_per_J" | Hz => "photon_flux_per_hz" end
   else
     match u with Nm => "power_density_per_nm" | M => "power_density_per_m" | EV => "power_density_per_eV"
     | J => "power_density_per_J" | Hz => "power_density_per_hz" end,
   if photon then photon_name u else power_name u)%string.

Definition dir {A} (u : coord) (l : list A) : list A :=
  match u with Nm | M => l | _ => rev l end.
Lemma dir_length {A} u (l : list A) : length (dir u l) = length l.
Proof. destruct u; simpl; auto using rev_length. Qed.

Lemma increasing_dir u x : Forall (fun v => 0 < v) x -> increasing x -> increasing (dir u (map (lam u) x)).
Proof.
  intros Hx Hi. rewrite Forall_forall in Hx. pose proof Kev_pos as P1. pose proof Khz_pos as P2. pose proof q_pos as Hq.
  assert (Hpos : forall i, (i < length x)%nat -> 0 < at_ x i) by (intros i H; apply Hx, nth_In, H).
  assert (Hmap : forall i, (i < length x)%nat -> at_ (map (lam u) x) i = lam u (at_ x i)).
  { intros i H. rewrite (nth_indep _ 0 (lam u 0)) by now rewrite map_length. apply map_nth. }
  assert (Hdec : forall k a b, 0 < k -> 0 < a < b -> k / b < k / a).
  { intros k a b Hk Hab. apply Rmult_lt_compat_l; [assumption|]. apply Rinv_lt_contravar; [nra|lra]. }
  assert (Hr : (forall a b, 0 < a < b -> lam u b < lam u a) -> increasing (rev (map (lam u) x))).
  { intros Hd i j [Hij Hj]. rewrite rev_length, map_length in Hj.
    rewrite !rev_nth by (rewrite map_length; lia). rewrite map_length, !Hmap by lia. apply Hd. split; [apply Hpos; lia|].
    apply Hi. lia. }
  assert (Hm : (forall a b, 0 < a < b -> lam u a < lam u b) -> increasing (map (lam u) x)).
  { intros Hd i j [Hij Hj]. rewrite map_length in Hj. rewrite !Hmap by lia. apply Hd. split; [apply Hpos; lia|].
    apply Hi. lia. }
  destruct u; cbn [dir].
  - apply Hm. simpl. intros. lra.
  - apply Hm. simpl. intros. lra.
  - apply Hr. intros a b Hab. rewrite !lam_form by lra. now apply Hdec.
  - apply Hr. intros a b Hab. rewrite !lam_form by lra. apply Hdec; [nra|assumption].
  - apply Hr. intros a b Hab. rewrite !lam_form by lra. now apply Hdec.
Qed.

(** Interpolation at a node of the (possibly reversed) converted table. *)
Lemma node_value u x (z : list R) i v b : increasing (dir u (map (lam u) x)) -> (2 <= length x)%nat ->
  length z = length x -> nth_error x i = Some v -> nth_error z i = Some b ->
  scipy_interp (dir u (map (lam u) x)) (dir u z) 0 0 (lam u v) = b.
Proof.
  intros Hi Hl Hz Hv Hb. assert (Hlt : (i < length x)%nat) by (apply nth_error_Some; congruence).
  assert (L1 : nth_error (map (lam u) x) i = Some (lam u v)) by (rewrite nth_error_map', Hv; reflexivity).
  assert (E : exists j, (j < length x)%nat /\ at_ (dir u (map (lam u) x)) j = lam u v /\ at_ (dir u z) j = b).
  { assert (Hr : (length x - S (length x - 1 - i) = i)%nat) by lia.
    destruct u; [exists i|exists i|exists (length x - 1 - i)%nat|exists (length x - 1 - i)%nat|exists (length x - 1 - i)%nat];
      (split; [lia|]); cbn [dir]; rewrite ?rev_nth by (rewrite ?map_length; lia);
      rewrite ?Hz, ?map_length, ?Hr; split; now apply nth_error_nth. }
  destruct E as (j & Hj & E1 & E2).
  assert (Ld : length (dir u (map (lam u) x)) = length x) by now rewrite dir_length, map_length.
  rewrite <- E1, <- E2. apply scipy_interp_node; rewrite ?Ld; auto.
Qed.

Lemma each2_combine f (F : R * R -> R) : forall l m, length l = length m ->
  (forall p, In p (combine l m) -> f (fst p) (snd p) = Ok (F p)) -> each2 f l m = Ok (map F (combine l m)).
Proof.
  induction l as [|a l IH]; intros [|b m] Hl H; try discriminate; [reflexivity|]. injection Hl as Hl.
  cbn [each2 combine map]. assert (E := H (a, b) (or_introl eq_refl)). cbn [fst snd] in E. rewrite E. cbn [bindR]. rewrite IH; [reflexivity|assumption|].
  intros p Hp. apply H. now right.
Qed.
Lemma combine_map_l {A B D} (f : A -> D) (l : list A) (m : list B) :
  combine (map f l) m = map (fun p => (f (fst p), snd p)) (combine l m).
Proof. revert m. induction l as [|a l IH]; intros [|b m]; try reflexivity. cbn [map combine fst snd]. now rewrite IH. Qed.
Lemma combine_map_r {A B D} (f : B -> D) (l : list A) (m : list B) :
  combine l (map f m) = map (fun p => (fst p, f (snd p))) (combine l m).
Proof. revert m. induction l as [|a l IH]; intros [|b m]; try reflexivity. cbn [map combine fst snd]. now rewrite IH. Qed.
Lemma combine_swap {A B} (l : list A) (m : list B) : combine m l = map (fun p => (snd p, fst p)) (combine l m).
Proof. revert m. induction l as [|a l IH]; intros [|b m]; try reflexivity. cbn [map combine fst snd]. now rewrite IH. Qed.
Lemma combine_fst {A B D} (F : A * B -> D) (l : list A) : forall m, length m = length l ->
  combine (map F (combine l m)) l = map (fun p => (F p, fst p)) (combine l m).
Proof.
  induction l as [|a l IH]; intros [|b m] H; try discriminate; [reflexivity|]. injection H as H.
  cbn [combine map fst snd]. now rewrite IH.
Qed.
Lemma in_combine_pos {B} (x : list R) (y : list B) p : Forall (fun v => 0 < v) x -> In p (combine x y) -> 0 < fst p.
Proof. intros H Hp. destruct p as [a b]. rewrite Forall_forall in H. apply H. eapply in_combine_l, Hp. Qed.

(** Value of the converted table at one point. *)
Definition to_nm (photon : bool) (u : coord) (p : R * R) : R :=
  snd p / jac u (fst p) * (if photon then photon_energy (lam u (fst p)) else 1).

Section Custom.
Context (fl : text -> option R) (tb : table) (K : knows tb q em9) (Hf : reads_minus_one fl).

Lemma times_energy wl y (F : R * R -> R) : Forall (fun v => 0 < v) wl -> length y = length wl ->
  (forall p, In p (combine y wl) -> fst p * (c * h * e9 / snd p) = F p) ->
  bindR (each (divide (c * h * e9)) wl) (fun e => each2 (fun a b => Ok (a * b)) y e) = Ok (map F (combine y wl)).
Proof.
  intros Hw Hl HF. rewrite (each_map _ (fun v => c * h * e9 / v)) by (try assumption; intros v Hv; apply divide_ok; lra).
  cbn [bindR]. rewrite (each2_combine _ (fun p => fst p * snd p)); [|now rewrite map_length|reflexivity].
  rewrite combine_map_r, map_map. f_equal. apply map_ext_in. intros p Hp. cbn [fst snd]. now apply HF.
Qed.

Lemma custom_table photon u x y : (photon, u) <> (true, Hz) ->
  Forall (fun v => 0 < v) x -> length y = length x ->
  custom_to_nm fl tb (fst (sym_units photon u)) x y =
  Ok (dir u (map (lam u) x), dir u (map (to_nm photon u) (combine x y))).
Proof.
  intros Hne Hx Hl. pose proof h_pos as Hh. pose proof c_pos as Hc. pose proof q_pos as Hq. pose proof em9_pos as Hn.
  pose proof Kev_pos as P1. pose proof Khz_pos as P2. pose proof hc_pos as Hhc.
  assert (Hp : forall p, In p (combine x y) -> 0 < fst p) by (intros p; now apply in_combine_pos).
  assert (He9 : 0 < e9) by (unfold e9; lra).
  assert (Hm : Forall (fun v => 0 < v) (map (fun v => v * e9) x)) by (apply map_pos; [assumption|intros; nra]).
  assert (Hxq : Forall (fun v => 0 < v) (map (fun v => v / q) x)) by (apply map_pos; [assumption|intros; now apply Rdiv_lt_0_compat]).
  assert (HrK : forall k z, 0 < k -> Forall (fun v => 0 < v) z -> Forall (fun v => 0 < v) (rev (map (fun v => k / v) z))).
  { intros k z Hk Hz. apply rev_pos, map_pos; [assumption|]. intros; now apply Rdiv_lt_0_compat. }
  destruct photon, u; try (contradiction Hne; reflexivity); unfold sym_units; cbn [fst dir];
    unfold custom_to_nm; cbn -[e9 em9 lam jac photon_energy spectral_nm_ev spectral_nm_hz Kev Khz each each2 divide pow map combine rev].
  - rewrite (times_energy x y (fun p => to_nm true Nm (snd p, fst p)) Hx Hl).
    + cbn [bindR]. f_equal. f_equal; [now rewrite map_id|]. rewrite (combine_swap x y), map_map. reflexivity.
    + intros [b v] Hin. cbn [fst snd]. assert (0 < v) by (rewrite Forall_forall in Hx; eapply Hx, in_combine_r, Hin).
      unfold to_nm, jac, photon_energy, lam, e9. cbn [fst snd]. field. lra.
  - rewrite (each_map _ (fun v => c * h / v)) by (try assumption; intros v Hv; apply divide_ok; lra). cbn [bindR].
    rewrite (each2_combine _ (fun p => fst p * snd p)); [|now rewrite !map_length|reflexivity]. cbn [bindR].
    rewrite map_map, combine_map_r, (combine_swap x y), !map_map. f_equal. f_equal.
    + apply map_ext_pos; [assumption|]. intros v Hv. now rewrite lam_form.
    + apply map_ext_in. intros [v b] Hin. cbn [fst snd]. assert (0 < v) by exact (Hp _ Hin).
      unfold to_nm, jac, photon_energy, lam, e9. cbn [fst snd]. field. lra.
  - rewrite (ev_v fl tb K Hf x y Hx Hl). cbn [bindR fst snd].
    rewrite (times_energy _ _ (fun p => fst p * (c * h * e9 / snd p))); [|now apply HrK| |reflexivity].
    2:{ rewrite !rev_length, !map_length, combine_length. lia. }
    cbn [bindR]. f_equal. f_equal.
    + f_equal. apply map_ext_pos; [assumption|]. intros v Hv. now rewrite lam_form.
    + rewrite combine_rev by (rewrite !map_length, combine_length; lia).
      rewrite map_rev. f_equal.
      rewrite combine_map_l, combine_map_r, !map_map, (combine_swap x y). cbn [fst snd].
      rewrite combine_fst, !map_map by assumption. apply map_ext_in. intros [v b] Hin. assert (0 < v) by exact (Hp _ Hin).
      unfold to_nm. cbn [fst snd]. rewrite lam_form by assumption. unfold jac, photon_energy, Kev, e9, em9. field. repeat split; lra.
  - rewrite (ev_v fl tb K Hf (map (fun v => v / q) x) (map (fun v => v * q) y) Hxq) by now rewrite !map_length. cbn [bindR fst snd].
    rewrite (times_energy _ _ (fun p => fst p * (c * h * e9 / snd p))); [|now apply HrK| |reflexivity].
    2:{ rewrite !rev_length, !map_length, combine_length, !map_length. lia. }
    cbn [bindR]. f_equal. f_equal.
    + f_equal. rewrite map_map. apply map_ext_pos; [assumption|]. intros v Hv. rewrite lam_form by assumption. field. lra.
    + rewrite combine_rev by (rewrite !map_length, combine_length, !map_length; lia).
      rewrite map_rev. f_equal.
      rewrite !combine_map_l, !combine_map_r, !map_map, (combine_swap x y). cbn [fst snd].
      rewrite !map_map.
      rewrite combine_fst, !map_map by assumption.
      apply map_ext_in. intros [v b] Hin. assert (0 < v) by exact (Hp _ Hin).
      unfold to_nm. cbn [fst snd]. rewrite lam_form by assumption. unfold jac, photon_energy, Kev, e9, em9. field. repeat split; lra.
  - f_equal. f_equal; [now rewrite map_id|].
    clear - Hl. revert y Hl. induction x as [|a x IH]; intros [|b y] Hl; try discriminate; [reflexivity|].
    injection Hl as Hl. cbn [map combine]. f_equal; [unfold to_nm, jac; cbn [snd fst]; field|]. now apply IH.
  - f_equal. f_equal.
    + apply map_ext_pos; [assumption|]. intros v Hv. now rewrite lam_form.
    + clear - Hl. revert y Hl. induction x as [|a x IH]; intros [|b y] Hl; try discriminate; [reflexivity|].
      injection Hl as Hl. cbn [map combine]. f_equal; [unfold to_nm, jac, em9, e9; cbn [snd fst]; field|]. now apply IH.
  - rewrite (ev_v fl tb K Hf x y Hx Hl). f_equal. f_equal; f_equal.
    + apply map_ext_pos; [assumption|]. intros v Hv. now rewrite lam_form.
    + rewrite (combine_swap x y), map_map. apply map_ext_in. intros [v b] Hin. assert (0 < v) by exact (Hp _ Hin).
      unfold to_nm, jac. cbn [fst snd]. field. lra.
  - rewrite (ev_v fl tb K Hf (map (fun v => v / q) x) (map (fun v => v * q) y) Hxq) by now rewrite !map_length. f_equal. f_equal; f_equal.
    + rewrite map_map. apply map_ext_pos; [assumption|]. intros v Hv. rewrite lam_form by assumption. field. lra.
    + rewrite combine_map_l, combine_map_r, (combine_swap x y), !map_map. apply map_ext_in. intros [v b] Hin. assert (0 < v) by exact (Hp _ Hin).
      unfold to_nm, jac. cbn [fst snd]. field. lra.
  - rewrite (hz_v fl tb K Hf x y Hx Hl). f_equal. f_equal; f_equal.
    + apply map_ext_pos; [assumption|]. intros v Hv. now rewrite lam_form.
    + rewrite (combine_swap x y), map_map. apply map_ext_in. intros [v b] Hin. assert (0 < v) by exact (Hp _ Hin).
      unfold to_nm, jac. cbn [fst snd]. field. lra.
Qed.
End Custom.

(** A custom source. *)
Definition custom_options (units : string) (x y : list R) : list (string * oval) :=
  [("x_data", OArr x); ("y_data", OArr y); ("input_units", OText units)]%string.

Lemma list_nth_ext {A} (l m : list A) : length l = length m ->
  (forall i a b, nth_error l i = Some a -> nth_error m i = Some b -> a = b) -> l = m.
Proof.
  revert m. induction l as [|a l IH]; intros [|b m] Hl H; try discriminate; [reflexivity|]. f_equal.
  - apply (H 0%nat); reflexivity.
  - apply IH; [now injection Hl|]. intros i. apply (H (S i)).
Qed.

Section Sources.
Context (fl : text -> option R) (tb : table) (wl0 a0 ag ad : list R)
        (ext : string -> R -> list (string * oval) -> built).
Notation LightSource := (light_source fl tb wl0 a0 ag ad ext).
Notation Spectrum := (spectrum fl tb wl0 a0 ag ad ext).

Lemma custom_built o i x y con z wl : custom_to_nm fl tb i x y = Ok (wl, z) -> length z = length wl -> (2 <= length wl)%nat ->
  In o (map fst (converters fl tb)) ->
  LightSource "custom" (Some x) o con (custom_options i x y) =
  Ok (mk "custom" (Some x) (Some wl) (np_trapz z wl * con) (custom_options i x y) o con
        (Some (fun v => Ok (scipy_interp wl z 0 0 v)))).
Proof.
  intros E Hl H2 Ho. unfold light_source. cbn [existsb source_types String.eqb Ascii.eqb Bool.eqb orb negb].
  assert (exists g, find_name (converters fl tb) o = Some g) as (g & ->).
  { clear - Ho. induction (converters fl tb) as [|[k g] l IH]; [destruct Ho|]. cbn [find_name].
    destruct (String.eqb_spec k o) as [->|Hn]; [eauto|]. destruct Ho as [Ho|Ho]; [contradiction|auto]. }
  unfold update_function, build. cbn [s_type s_conc s_opts s_x s_xi s_pd s_units s_fun].
  change (String.eqb "custom" "standard") with false. change (String.eqb "custom" "laser") with false.
  change (String.eqb "custom" "black body") with false. change (String.eqb "custom" "SPECTRAL2") with false.
  change (String.eqb "custom" "SMARTS") with false. change (String.eqb "custom" "custom") with true. cbv iota.
  unfold get_custom, opt, custom_options.
  change (find_name [("x_data"%string, OArr x); ("y_data"%string, OArr y); ("input_units"%string, OText i)] "x_data") with (Some (OArr x)).
  change (find_name [("x_data"%string, OArr x); ("y_data"%string, OArr y); ("input_units"%string, OText i)] "y_data") with (Some (OArr y)).
  change (find_name [("x_data"%string, OArr x); ("y_data"%string, OArr y); ("input_units"%string, OText i)] "input_units") with (Some (OText i)).
  cbn [bindR as_array]. rewrite E. cbn [bindR fst snd catch_key]. unfold tabulated.
  rewrite Hl, Nat.eqb_refl. cbn [negb].
  destruct (Nat.ltb_spec (length wl) 2); [lia|]. reflexivity.
Qed.

Lemma find_converter u photon : exists g, find_name (converters fl tb) (snd (sym_units photon u)) = Some g.
Proof. destruct photon, u; eexists; reflexivity. Qed.
Lemma name_known u photon : In (snd (sym_units photon u)) (map fst (converters fl tb)).
Proof. destruct photon, u; simpl; tauto. Qed.

(** Reading a custom source back at its own abscissas, given the converted table [z]. *)
Lemma read_back photon u x (z r y : list R) con : knows tb q em9 -> reads_minus_one fl ->
  Forall (fun v => 0 < v) x -> increasing x -> (2 <= length x)%nat -> length z = length x -> length r = length x ->
  custom_to_nm fl tb (fst (sym_units photon u)) x y = Ok (dir u (map (lam u) x), dir u z) ->
  (forall i v a b, nth_error x i = Some v -> nth_error z i = Some a -> nth_error r i = Some b ->
     a * jac u v / (if photon then photon_energy (lam u v) else 1) = b) ->
  exists src, LightSource "custom" (Some x) (snd (sym_units photon u)) con
                (custom_options (fst (sym_units photon u)) x y) = Ok src /\
    Spectrum src None None None [] = (src, Ok (Some x, map (fun v => v * con) r)).
Proof.
  intros K Hf Hx Hi H2 Hz Hr E Hv.
  assert (Ld : length (dir u (map (lam u) x)) = length x) by now rewrite dir_length, map_length.
  assert (Lz : length (dir u z) = length (dir u (map (lam u) x))) by now rewrite Ld, dir_length.
  eexists. split. { apply (custom_built _ _ _ _ _ _ _ E Lz); [now rewrite Ld|apply name_known]. }
  set (g := fun v => scipy_interp (dir u (map (lam u) x)) (dir u z) 0 0 v).
  destruct (converter_values fl tb K Hf u (fun v => Ok (g v)) g x Hx (fun _ _ => eq_refl)) as (cp & cf & F1 & F2 & F3 & F4).
  assert (Hg : forall i v a, nth_error x i = Some v -> nth_error z i = Some a -> g (lam u v) = a).
  { intros i v a Hxi Hzi. unfold g. apply (node_value u x z i v a); auto using increasing_dir. }
  assert (exists get, find_name (converters fl tb) (snd (sym_units photon u)) = Some get /\
    get (fun v => Ok (g v)) x = Ok r) as (get & G1 & G2).
  { destruct photon.
    - exists cf. split; [exact F2|]. rewrite F4. f_equal. apply list_nth_ext; [unfold photons; now rewrite map_length|].
      intros i a b Ha Hb. unfold photons in Ha. rewrite nth_error_map' in Ha.
      destruct (nth_error x i) as [v|] eqn:Hxi; [|discriminate]. cbn in Ha. injection Ha as <-.
      assert (exists d, nth_error z i = Some d) as (d & Hd).
      { destruct (nth_error z i) eqn:Hzi; [eauto|]. apply nth_error_None in Hzi.
        assert (i < length x)%nat by (apply nth_error_Some; congruence). lia. }
      rewrite (Hg i v d Hxi Hd). exact (Hv i v d b Hxi Hd Hb).
    - exists cp. split; [exact F1|]. rewrite F3. f_equal. apply list_nth_ext; [unfold powers; now rewrite map_length|].
      intros i a b Ha Hb. unfold powers in Ha. rewrite nth_error_map' in Ha.
      destruct (nth_error x i) as [v|] eqn:Hxi; [|discriminate]. cbn in Ha. injection Ha as <-.
      assert (exists d, nth_error z i = Some d) as (d & Hd).
      { destruct (nth_error z i) eqn:Hzi; [eauto|]. apply nth_error_None in Hzi.
        assert (i < length x)%nat by (apply nth_error_Some; congruence). lia. }
      rewrite (Hg i v d Hxi Hd). rewrite <- (Hv i v d b Hxi Hd Hb). field. }
  unfold spectrum. cbn [s_type s_conc s_opts s_x s_xi s_pd s_units s_fun]. rewrite G1. cbn [s_fun s_x].
  change (fun v => Ok (scipy_interp (dir u (map (lam u) x)) (dir u z) 0 0 v)) with (fun v => Ok (g v)).
  rewrite G2. reflexivity.
Qed.

(** C50, every input unit but photon flux per Hz: a custom source made from a table
    with positive increasing abscissas and at least two points, read back in the same
    units at the same abscissas, gives the table times the concentration. *)
Theorem C50_roundtrip_partial :
  knows tb q (/ 10 ^ 9) -> reads_minus_one fl ->
  forall photon u x y con, (photon, u) <> (true, Hz) ->
    Forall (fun v => 0 < v) x -> increasing x -> (2 <= length x)%nat -> length y = length x ->
    exists src, LightSource "custom" (Some x) (snd (sym_units photon u)) con
                  (custom_options (fst (sym_units photon u)) x y) = Ok src /\
      Spectrum src None None None [] = (src, Ok (Some x, map (fun v => v * con) y)).
Proof.
  intros K Hf photon u x y con Hne Hx Hi H2 Hl.
  assert (K' : knows tb q em9) by (replace em9 with (/ 10 ^ 9) by (unfold em9; lra); exact K).
  apply (read_back photon u x (map (to_nm photon u) (combine x y)) y y con); auto.
  - rewrite map_length, combine_length. lia.
  - now apply custom_table.
  - intros i v a b Hv Ha Hb. rewrite nth_error_map', (nth_error_combine _ _ _ _ _ Hv Hb) in Ha. injection Ha as <-.
    assert (Hp : 0 < v). { rewrite Forall_forall in Hx. eapply Hx, nth_error_In, Hv. }
    pose proof (jac_pos u v Hp). pose proof (pe_pos _ (lam_pos u v Hp)).
    unfold to_nm. cbn [fst snd]. destruct photon; field; lra.
Qed.

(** Photon flux per Hz: what is read back is the value times the ratio of the
    mirrored abscissa to the abscissa. *)
Theorem C50_photon_hz_partial :
  knows tb q (/ 10 ^ 9) -> reads_minus_one fl ->
  forall x y con,
    Forall (fun v => 0 < v) x -> increasing x -> (2 <= length x)%nat -> length y = length x ->
    exists src r, LightSource "custom" (Some x) "photon_flux_per_hz" con
                  (custom_options "photon_flux_per_hz" x y) = Ok src /\
      Spectrum src None None None [] = (src, Ok (Some x, map (fun v => v * con) r)) /\ length r = length x /\
      forall i v m b, nth_error x i = Some v -> nth_error (rev x) i = Some m -> nth_error y i = Some b ->
        nth_error r i = Some (b * m / v).
Proof.
  intros K Hf x y con Hx Hi H2 Hl.
  assert (K' : knows tb q em9) by (replace em9 with (/ 10 ^ 9) by (unfold em9; lra); exact K).
  set (r := map (fun p => snd (fst p) * snd p / fst (fst p)) (combine (combine x y) (rev x))).
  set (z := map (fun p => to_nm false Hz (fst p) * (h * snd p)) (combine (combine x y) (rev x))).
  assert (Lr : length r = length x) by (unfold r; rewrite map_length, !combine_length, rev_length; lia).
  assert (Lz : length z = length x) by (unfold z; rewrite map_length, !combine_length, rev_length; lia).
  assert (Hnth : forall i v m b, nth_error x i = Some v -> nth_error (rev x) i = Some m -> nth_error y i = Some b ->
    nth_error (combine (combine x y) (rev x)) i = Some (v, b, m)).
  { intros i v m b H1 H3 H4. apply nth_error_combine; [|assumption]. now apply nth_error_combine. }
  destruct (read_back true Hz x z r y con) as (src & S1 & S2); auto.
  - pose proof (custom_table fl tb K' Hf false Hz x y ltac:(discriminate) Hx Hl) as E.
    cbn [sym_units fst] in *. unfold custom_to_nm in *.
    cbn -[spectral_nm_hz lam to_nm each2 map rev combine] in E |- *. rewrite E. cbn [bindR fst snd dir].
    rewrite (each2_combine _ (fun p => fst p * (h * snd p))); [|rewrite rev_length, map_length, combine_length; lia|reflexivity].
    cbn [bindR]. do 2 f_equal. unfold z.
    rewrite <- (rev_involutive x) at 2. rewrite combine_rev by (rewrite map_length, combine_length, rev_length; lia).
    rewrite map_rev. f_equal. rewrite combine_map_l, map_map. reflexivity.
  - intros i v a b Hv Ha Hb.
    assert (Hlt : (i < length x)%nat) by (apply nth_error_Some; congruence).
    destruct (nth_error y i) as [w|] eqn:Hy; [|apply nth_error_None in Hy; lia].
    destruct (nth_error (rev x) i) as [m|] eqn:Hm; [|apply nth_error_None in Hm; rewrite rev_length in Hm; lia].
    unfold z, r in Ha, Hb.
    rewrite nth_error_map', (Hnth i v m w Hv Hm Hy) in Ha. rewrite nth_error_map', (Hnth i v m w Hv Hm Hy) in Hb.
    injection Ha as <-. injection Hb as <-. cbn [fst snd].
    assert (Hp : 0 < v). { rewrite Forall_forall in Hx. eapply Hx, nth_error_In, Hv. }
    pose proof (jac_pos Hz v Hp). pose proof h_pos. pose proof c_pos. pose proof Khz_pos.
    unfold to_nm. cbn [fst snd]. unfold photon_energy. rewrite lam_form by assumption. unfold jac, Khz, em9. field. lra.
  - exists src, r. split; [exact S1|]. split; [exact S2|]. split; [exact Lr|].
    intros i v m b Hv Hm Hb. unfold r. rewrite nth_error_map', (Hnth i v m b Hv Hm Hb). reflexivity.
Qed.

(** The names listed as valid units (those of the converters) are not all accepted
    as input units: the error is printed and the source has no spectrum. *)
Theorem C50_unit_names_refuted :
  exists units, In units (map fst (converters fl tb)) /\
    forall x y xs con, exists src,
      LightSource "custom" xs units con (custom_options units x y) = Ok src /\
      forall x' u, In u (map fst (converters fl tb)) ->
        snd (Spectrum src x' (Some u) None []) = Err TypeError.
Proof.
  exists "power_density_per_ev"%string. split; [simpl; tauto|]. intros x y xs con. eexists. split; [reflexivity|].
  intros x' u Hu. unfold spectrum. cbn [s_x s_xi s_units s_conc].
  assert (exists g, find_name (converters fl tb) u = Some g) as (g & ->).
  { clear - Hu. induction (converters fl tb) as [|[k g] l IH]; [destruct Hu|]. cbn [find_name].
    destruct (String.eqb_spec k u) as [->|Hn]; [eauto|]. destruct Hu as [Hu|Hu]; [contradiction|auto]. }
  reflexivity.
Qed.
End Sources.
Print Assumptions C50_roundtrip_partial.
Print Assumptions C50_photon_hz_partial.
Print Assumptions C50_unit_names_refuted.

(** C50 fails for photon flux per Hz: two points suffice. *)
Theorem C50_photon_hz_refuted :
  forall fl tb wl0 a0 ag ad ext, knows tb q (/ 10 ^ 9) -> reads_minus_one fl ->
  exists x y src r,
    Forall (fun v => 0 < v) x /\ increasing x /\ (2 <= length x)%nat /\ length y = length x /\
    light_source fl tb wl0 a0 ag ad ext "custom" (Some x) "photon_flux_per_hz" 1
      (custom_options "photon_flux_per_hz" x y) = Ok src /\
    spectrum fl tb wl0 a0 ag ad ext src None None None [] = (src, Ok (Some x, r)) /\ r <> y.
Proof.
  intros fl tb wl0 a0 ag ad ext K Hf.
  assert (Hx : Forall (fun v => 0 < v) [1; 2]) by (repeat constructor; lra).
  assert (Hi : increasing [1; 2]).
  { intros i j [Hij Hj]. simpl in Hj. assert (i = 0 /\ j = 1)%nat as [-> ->] by lia. simpl. lra. }
  destruct (C50_photon_hz_partial fl tb wl0 a0 ag ad ext K Hf [1; 2] [1; 1] 1 Hx Hi (le_n 2) eq_refl)
    as (src & r & S1 & S2 & S3 & S4).
  exists [1; 2], [1; 1], src, (map (fun v => v * 1) r). do 6 (split; [solve [assumption|apply le_n|reflexivity]|]).
  intros E. specialize (S4 0%nat 1 2 1 eq_refl eq_refl eq_refl).
  assert (E' : nth_error (map (fun v => v * 1) r) 0 = Some 1) by now rewrite E.
  rewrite nth_error_map', S4 in E'. injection E' as E'. lra.
Qed.
Print Assumptions C50_photon_hz_refuted.
Example C50_case :
  Forall (fun v => 0 < v) [1 / 2; 1; 2] /\ increasing [1 / 2; 1; 2] /\ (2 <= length [1 / 2; 1; 2])%nat /\
  (true, EV) <> (true, Hz).
Proof.
  split; [repeat constructor; lra|]. split; [|split; [simpl; lia|discriminate]].
  intros i j [Hij Hj]. simpl in Hj. destruct i as [|[|i]], j as [|[|[|j]]]; simpl; try lia; lra.
Qed.

(** * C51: the abscissas returned *)

Section Calls.
Context (fl : text -> option R) (tb : table) (wl0 a0 ag ad : list R)
        (ext : string -> R -> list (string * oval) -> built).
Notation LightSource := (light_source fl tb wl0 a0 ag ad ext).
Notation Spectrum := (spectrum fl tb wl0 a0 ag ad ext).

(** The abscissas and values [r] belong together: they come from the converter of
    the requested units and the spectrum of the source after the call. *)
Definition values_at (s' : source) (units : string) (con : R) (ax : list R) (r : list R) : Prop :=
  exists get f y, find_name (converters fl tb) units = Some get /\ s_fun s' = Some f /\
    get f ax = Ok y /\ r = map (fun v => v * con) y.
Definition default {A} (o : option A) (d : A) : A := match o with Some a => a | None => d end.

(** Every call that returns: the values are those at the requested abscissas, else at
    the stored ones, else at the internal ones before the call; the abscissas returned
    are the stored ones.  So the pair is right when no abscissas are asked for and some
    are stored, or the stored ones are asked for. *)
Theorem C51_abscissas_partial : forall s x units con kw s' ax r,
  Spectrum s x units con kw = (s', Ok (ax, r)) ->
  ax = s_x s /\ s_x s' = s_x s /\
  (forall l, x = Some l -> values_at s' (default units (s_units s)) (default con (s_conc s)) l r) /\
  (forall l, x = None -> s_x s = Some l -> values_at s' (default units (s_units s)) (default con (s_conc s)) l r) /\
  (forall l, x = None -> s_x s = None -> s_xi s = Some l ->
     values_at s' (default units (s_units s)) (default con (s_conc s)) l r).
Proof.
  intros s x units con kw s' ax r. unfold spectrum, values_at.
  change (match units with Some u => u | None => s_units s end) with (default units (s_units s)).
  change (match con with Some u => u | None => s_conc s end) with (default con (s_conc s)).
  destruct (find_name (converters fl tb) (default units (s_units s))) as [get|] eqn:Eg; [|discriminate].
  match goal with |- context [let '(s', e) := ?z in _] => set (pr := z) end.
  assert (Hx : s_x (fst pr) = s_x s).
  { unfold pr. destruct kw as [|p kw]; [reflexivity|]. unfold update_function.
    cbn [s_type s_conc s_opts s_x s_xi s_pd s_units s_fun]. destruct (build _ _ _ _ _ _ _ _ _ _); reflexivity. }
  destruct pr as [s1 e]. cbn [fst] in Hx. destruct e as [e|]; [discriminate|].
  destruct (s_fun s1) as [f|] eqn:Ef; [|destruct x, (s_x s), (s_xi s); discriminate].
  destruct (match x with Some l => Some l | None => match s_x s with Some l => Some l | None => s_xi s end end) as [l|] eqn:El; [|discriminate].
  destruct (get f l) as [y|e] eqn:Ey; cbn [bindR]; [|discriminate].
  intros [= <- <- <-]. split; [assumption|]. split; [assumption|].
  split; [|split].
  - intros l' ->. injection El as ->. exists get, f, y. auto.
  - intros l' -> Hl. rewrite Hl in El. injection El as ->. exists get, f, y. auto.
  - intros l' -> Hl Hl'. rewrite Hl, Hl' in El. injection El as ->. exists get, f, y. auto.
Qed.

(** A laser with stored abscissas [500], asked at [600]: the answer says 500.  And
    without stored abscissas the answer says None although values were computed. *)
Definition laser_options (p l m : R) : list (string * oval) :=
  [("power", ONum p); ("linewidth", ONum l); ("center", ONum m)]%string.
Lemma laser_built p l m x u con : l <> 0 -> In u (map fst (converters fl tb)) ->
  exists xi, arange (m - 5 * l) (m + 5 * l) (l / 20) = Ok xi /\
  LightSource "laser" x u con (laser_options p l m) =
  Ok (mk "laser" x (Some xi) (p * con) (laser_options p l m) u con (Some (laser p (l ^ 2) m))).
Proof.
  intros Hl Hu.
  assert (exists g, find_name (converters fl tb) u = Some g) as (g & Hg).
  { clear - Hu. induction (converters fl tb) as [|[k g] cs IH]; [destruct Hu|]. cbn [find_name].
    destruct (String.eqb_spec k u) as [->|Hn]; [eauto|]. destruct Hu as [Hu|Hu]; [contradiction|auto]. }
  assert (exists xi, arange (m - 5 * l) (m + 5 * l) (l / 20) = Ok xi) as (xi & Hxi).
  { unfold arange. destruct (Req_EM_T (l / 20) 0) as [E|E]; [exfalso; apply Hl; lra|eauto]. }
  exists xi. split; [assumption|]. unfold light_source. rewrite Hg.
  cbn [existsb source_types String.eqb Ascii.eqb Bool.eqb orb negb].
  unfold update_function. cbn -[arange laser]. unfold get_laser, laser_options. cbn -[arange laser pow].
  rewrite Hxi. reflexivity.
Qed.
Lemma laser_value p l m x : 0 < l -> laser p (l ^ 2) m x =
  Ok (p / sqrt (2 * PI * l ^ 2) * exp (- (x - m) ^ 2 / 2 / l ^ 2)).
Proof.
  intros Hl. unfold laser. pose proof (pow_lt l 2 Hl). pose proof PI_RGT_0.
  assert (0 < sqrt (2 * PI * l ^ 2)) by (apply sqrt_lt_R0; apply Rmult_lt_0_compat; lra).
  rewrite divide_ok by lra. cbn [bindR]. rewrite divide_ok by lra. reflexivity.
Qed.
Theorem C51_requested_refuted :
  exists src x s' ax r, LightSource "laser" (Some [500]) "power_density_per_nm" 1 (laser_options 1 10 500) = Ok src /\
    Spectrum src (Some x) None None [] = (s', Ok (ax, r)) /\ ax <> Some x.
Proof.
  destruct (laser_built 1 10 500 (Some [500]) "power_density_per_nm" 1 ltac:(lra) ltac:(simpl; tauto)) as (xi & _ & E).
  rewrite E. eexists _, [600], _, _, _. split; [reflexivity|]. unfold spectrum. cbn -[laser pow].
  unfold power_density_per_nm, each. rewrite laser_value by lra. cbn [bindR]. split; [reflexivity|].
  intros [= H]. lra.
Qed.
Theorem C51_internal_refuted :
  exists src s' r, LightSource "laser" None "power_density_per_nm" 1 (laser_options 1 10 500) = Ok src /\
    Spectrum src None None None [] = (s', Ok (None, r)) /\ r <> [].
Proof.
  destruct (laser_built 1 10 500 None "power_density_per_nm" 1 ltac:(lra) ltac:(simpl; tauto)) as (xi & Hxi & E).
  rewrite E. eexists _, _, (map (fun v => v * 1) (map (fun x => 1 / sqrt (2 * PI * 10 ^ 2) * exp (- (x - 500) ^ 2 / 2 / 10 ^ 2)) xi)).
  split; [reflexivity|]. unfold spectrum. cbn -[laser pow map].
  unfold power_density_per_nm.
  rewrite (each_spec _ (fun x => 1 / sqrt (2 * PI * 10 ^ 2) * exp (- (x - 500) ^ 2 / 2 / 10 ^ 2)))
    by (intros; apply laser_value; lra).
  split; [reflexivity|]. intros H. apply (f_equal (@length R)) in H. rewrite !map_length in H.
  unfold arange in Hxi. destruct (Req_EM_T _ _); [discriminate|]. injection Hxi as <-. rewrite map_length, seq_length in H.
  pose proof (Rceil_spec ((500 + 5 * 10 - (500 - 5 * 10)) / (10 / 20))) as [_ Hc].
  assert (IZR 200 <= IZR (Rceil ((500 + 5 * 10 - (500 - 5 * 10)) / (10 / 20)))) as Hz by lra.
  apply le_IZR in Hz. simpl in H. lia.
Qed.

(** * C85: default abscissas *)

(** Without abscissas the internal ones, always wavelengths in nm, are handed to the
    converter of any units: in eV a custom source over 400-600 nm of power density
    one reads as dark at every point. *)
Theorem C85_default_units_refuted :
  knows tb q (/ 10 ^ 9) -> reads_minus_one fl -> h * c / (q * (/ 10 ^ 9)) < 400 * 400 ->
  exists src s' ax, LightSource "custom" None "power_density_per_ev" 1
      (custom_options "power_density_per_nm" [400; 500; 600] [1; 1; 1]) = Ok src /\
    s_xi src = Some [400; 500; 600] /\
    Spectrum src None None None [] = (s', Ok (ax, [0; 0; 0])).
Proof.
  intros K Hf HK.
  assert (K' : knows tb q em9) by (replace em9 with (/ 10 ^ 9) by (unfold em9; lra); exact K).
  assert (HK' : Kev < 400 * 400) by (unfold Kev, em9; replace (/ 1000000000) with (/ 10 ^ 9) by lra; exact HK).
  eexists _, _, _. split; [reflexivity|]. split; [reflexivity|].
  unfold spectrum. cbn -[scipy_interp power_density_per_ev map np_trapz].
  set (g := fun v => scipy_interp [400; 500; 600] [1; 1; 1] 0 0 v).
  destruct (converter_values fl tb K' Hf EV (fun v => Ok (g v)) g [400; 500; 600]) as (cp & cf & F1 & _ & F3 & _); auto.
  { repeat constructor; lra. }
  cbn in F1. injection F1 as <-. rewrite F3. cbn [bindR]. repeat f_equal. unfold powers, g. cbn [map].
  assert (G : forall v, 400 <= v -> scipy_interp [400; 500; 600] [1; 1; 1] 0 0 (lam EV v) * jac EV v * 1 = 0).
  { intros v Hv. rewrite lam_form by lra. unfold scipy_interp. destruct (Rlt_dec _ _) as [_|Hn]; [lra|]. exfalso. apply Hn.
    cbn [nth]. apply (Rmult_lt_reg_r v); [lra|]. unfold Rdiv. rewrite Rmult_assoc, Rinv_l by lra. nra. }
  rewrite !G by lra. reflexivity.
Qed.
(** In nm the default is right: the values are those of the spectrum at the internal
    wavelengths, which are the data of a custom source in nm. *)
Theorem C85_default_nm_partial :
  forall x y con, length y = length x -> (2 <= length x)%nat -> increasing x ->
  exists src, LightSource "custom" None "power_density_per_nm" con
      (custom_options "power_density_per_nm" x y) = Ok src /\ s_xi src = Some x /\
    Spectrum src None None None [] = (src, Ok (None, map (fun v => v * con) y)).
Proof.
  intros x y con Hl H2 Hi.
  unfold light_source, update_function. cbn -[scipy_interp map np_trapz Nat.ltb Nat.eqb length]. unfold tabulated.
  rewrite Hl, Nat.eqb_refl. cbn [negb]. destruct (Nat.ltb_spec (length x) 2); [lia|].
  eexists. split; [reflexivity|]. split; [reflexivity|]. unfold spectrum. cbn -[scipy_interp map np_trapz].
  unfold power_density_per_nm. rewrite (each_spec _ (fun v => scipy_interp x y 0 0 v)) by reflexivity. cbn [bindR].
  do 4 f_equal. apply list_nth_ext; [now rewrite map_length|]. intros i a b Ha Hb. rewrite nth_error_map' in Ha.
  destruct (nth_error x i) as [v|] eqn:Hv; [|discriminate]. injection Ha as <-.
  assert (Hlt : (i < length x)%nat) by (apply nth_error_Some; congruence).
  rewrite <- (nth_error_nth _ _ 0 Hv), <- (nth_error_nth _ _ 0 Hb). now apply scipy_interp_node.
Qed.

(** * C86: changing options in a call *)

(** The source made again with the changed options. *)
Definition with_options (s : source) (o : list (string * oval)) : source :=
  mk (s_type s) (s_x s) (s_xi s) (s_pd s) o (s_units s) (s_conc s) (s_fun s).

(** A call with options answers as a source newly made with the changed options
    would, for explicit abscissas, whenever that source gets a spectrum. *)
Theorem C86_update_partial :
  forall s x units con kw new f,
    kw <> [] ->
    LightSource (s_type s) (s_x s) (s_units s) (s_conc s) (update_options (s_opts s) kw) = Ok new ->
    s_fun new = Some f ->
    snd (Spectrum s (Some x) units con kw) = snd (Spectrum new (Some x) units con []).
Proof.
  intros s x units con kw new f Hkw Hnew Hfun. destruct kw as [|p kw]; [contradiction|].
  unfold light_source in Hnew. destruct (negb _); [discriminate|].
  destruct (find_name (converters fl tb) (s_units s)); [|discriminate].
  unfold update_function in Hnew. cbn [s_type s_conc s_opts s_x s_xi s_pd s_units s_fun] in Hnew.
  unfold spectrum, update_function. cbn [s_type s_conc s_opts s_x s_xi s_pd s_units s_fun].
  destruct (build _ _ _ _ _ _ _ (s_type s) (s_conc s) (update_options (s_opts s) (p :: kw))) as [g xi pd o| |e xi].
  - injection Hnew as <-. cbn [s_x s_xi s_units s_conc s_fun] in *.
    destruct (find_name (converters fl tb) _); [|reflexivity]. reflexivity.
  - injection Hnew as <-. discriminate.
  - destruct e; try discriminate. injection Hnew as <-. discriminate.
Qed.

(** Changed options only replace: an option not given at construction is ignored. *)
Lemma find_set_opt o k v k' : find_name (set_opt o k v) k' = if String.eqb k k' then Some v else find_name o k'.
Proof.
  induction o as [|[a w] o IH]; cbn [set_opt find_name].
  - reflexivity.
  - destruct (String.eqb_spec a k) as [->|Hn]; cbn [find_name].
    + destruct (String.eqb_spec k k'); reflexivity.
    + rewrite IH. destruct (String.eqb_spec a k') as [->|Hn2]; [|reflexivity].
      destruct (String.eqb_spec k k') as [->|_]; [contradiction|reflexivity].
Qed.
Theorem C86_only_existing : forall o kw k,
  (find_name o k = None -> find_name (update_options o kw) k = None) /\
  (NoDup (map fst kw) -> forall v w, find_name o k = Some v -> In (k, w) kw -> find_name (update_options o kw) k = Some w) /\
  (~ In k (map fst kw) -> find_name (update_options o kw) k = find_name o k).
Proof.
  unfold update_options. intros o kw k. revert o. induction kw as [|[a w0] kw IH]; intros o; cbn [fold_left map fst snd].
  - split; [auto|]. split; [intros _ v w _ []|auto].
  - destruct (IH (match find_name o a with Some _ => set_opt o a w0 | None => o end)) as (I1 & I2 & I3).
    assert (F : forall k', a <> k' -> find_name (match find_name o a with Some _ => set_opt o a w0 | None => o end) k' = find_name o k').
    { intros k' Hk. destruct (find_name o a); [|reflexivity]. rewrite find_set_opt.
      destruct (String.eqb_spec a k'); [contradiction|reflexivity]. }
    split; [|split].
    + intros Hk. apply I1. destruct (String.eqb_spec a k) as [->|Hn]; [now rewrite Hk|now rewrite F].
    + intros Hnd v w Hv Hin. inversion Hnd as [|? ? Hna Hnd']; subst. destruct Hin as [[= -> ->]|Hin].
      * rewrite I3 by assumption. rewrite Hv, find_set_opt, String.eqb_refl. reflexivity.
      * assert (a <> k). { intros ->. apply Hna. apply in_map_iff. exists (k, w). auto. }
        apply (I2 Hnd' v w); [now rewrite F|assumption].
    + intros Hni. cbn [In] in Hni. rewrite I3 by tauto. apply F. tauto.
Qed.

(** A call whose options cannot be used answers with the previous spectrum. *)
Theorem C86_failed_update_refuted :
  exists src s' r, LightSource "custom" (Some [450]) "power_density_per_nm" 1
      (custom_options "power_density_per_nm" [400; 500] [1; 3]) = Ok src /\
    Spectrum src None None None [("input_units", OText "W m-2 um-1")]%string = (s', Ok (Some [450], r)) /\
    r = [2] /\ find_name (s_opts s') "input_units" = Some (OText "W m-2 um-1").
Proof.
  eexists _, _, [2]. split; [reflexivity|].
  split; [|split; [reflexivity|]].
  - unfold spectrum. cbn -[scipy_interp map np_trapz].
    assert (E : scipy_interp [400; 500] [1; 3] 0 0 450 = 2).
    { unfold scipy_interp. cbn [nth length Nat.sub]. destruct (Rlt_dec _ _); [lra|]. destruct (Rlt_dec _ _); [lra|].
      rewrite (call_linear_cell _ _ _ 0); cbn [nth length]; [lra| |lia|lra].
      intros i j [Hij Hj]. simpl in Hj. assert (i = 0 /\ j = 1)%nat as [-> ->] by lia. simpl. lra. }
    rewrite E. cbn [bindR map]. rewrite !Rmult_1_r. reflexivity.
  - reflexivity.
Qed.
(** Moving the centre of a laser without abscissas: the values are computed at the
    internal abscissas of the previous centre. *)
Theorem C86_stale_abscissas_refuted :
  exists src s' r xi xi', LightSource "laser" None "power_density_per_nm" 1 (laser_options 1 10 500) = Ok src /\
    s_xi src = Some xi /\
    Spectrum src None None None [("center", ONum 1000)]%string = (s', Ok (None, r)) /\
    s_xi s' = Some xi' /\ nth_error xi' 0 = Some 950 /\
    r = map (fun v => v * 1) (map (fun x => 1 / sqrt (2 * PI * 10 ^ 2) * exp (- (x - 1000) ^ 2 / 2 / 10 ^ 2)) xi) /\
    nth_error xi 0 = Some 450.
Proof.
  destruct (laser_built 1 10 500 None "power_density_per_nm" 1 ltac:(lra) ltac:(simpl; tauto)) as (xi & Hxi & E).
  destruct (laser_built 1 10 1000 None "power_density_per_nm" 1 ltac:(lra) ltac:(simpl; tauto)) as (xi' & Hxi' & _).
  assert (First : forall m l, arange (m - 5 * 10) (m + 5 * 10) (10 / 20) = Ok l -> nth_error l 0 = Some (m - 50)).
  { intros m l. unfold arange. destruct (Req_EM_T _ _); [discriminate|]. intros [= <-].
    pose proof (Rceil_spec ((m + 5 * 10 - (m - 5 * 10)) / (10 / 20))) as [_ Hc].
    assert (IZR 200 <= IZR (Rceil ((m + 5 * 10 - (m - 5 * 10)) / (10 / 20)))) as Hz by lra.
    apply le_IZR in Hz. destruct (Z.to_nat _) as [|k] eqn:Ek; [lia|]. cbn. f_equal. lra. }
  rewrite E. eexists _, _, _, xi, xi'. split; [reflexivity|]. split; [reflexivity|].
  unfold spectrum, update_function, build. cbn -[nth_error laser pow map arange get_laser].
  unfold get_laser. cbn -[nth_error laser pow map arange]. rewrite Hxi'. cbn -[laser pow map arange].
  unfold power_density_per_nm.
  rewrite (each_spec _ (fun x => 1 / sqrt (2 * PI * 10 ^ 2) * exp (- (x - 1000) ^ 2 / 2 / 10 ^ 2)))
    by (intros x _; exact (laser_value 1 10 1000 x ltac:(lra))).
  split; [reflexivity|]. split; [reflexivity|]. split; [|split; [reflexivity|]].
  - change (nth_error xi' 0 = Some 950). rewrite (First _ _ Hxi'). f_equal. lra.
  - change (nth_error xi 0 = Some 450). rewrite (First _ _ Hxi). f_equal. lra.
Qed.
End Calls.
Print Assumptions C51_abscissas_partial.
Print Assumptions C51_requested_refuted.
Print Assumptions C51_internal_refuted.
Print Assumptions C85_default_units_refuted.
Print Assumptions C85_default_nm_partial.
Print Assumptions C86_update_partial.
Print Assumptions C86_only_existing.
Print Assumptions C86_failed_update_refuted.
Print Assumptions C86_stale_abscissas_refuted.
Example C85_case : h * c / (q * (/ 10 ^ 9)) < 400 * 400.
Proof. with_strategy transparent [h c q] unfold h, c, q. lra. Qed.
Example C86_case :
  update_options [("power", ONum 1); ("center", ONum 500)]%string [("center", ONum 600); ("width", ONum 3)]%string
  = [("power", ONum 1); ("center", ONum 600)]%string.
Proof. reflexivity. Qed.

(** * C87: shape of the laser and black body spectra *)

(** Black body: for positive temperature, etendue and wavelength the value is that of
    Planck's law (written here with the wavelength [l] in m), positive, strictly
    increasing with temperature and proportional to the etendue. *)
Theorem C87_black_body :
  forall ent T x, 0 < ent -> 0 < T -> 0 < x ->
  exists v, black_body ent T x = Ok v /\ 0 < v /\
    (let l := x / 10 ^ 9 in v * 10 ^ 9 * l ^ 5 * (exp (h * c / (l * kb * T)) - 1) = 2 * h * c ^ 2 * ent) /\
    (forall T' v', T < T' -> black_body ent T' x = Ok v' -> v < v') /\
    (forall k, 0 < k -> black_body (k * ent) T x = Ok (k * v)).
Proof.
  intros ent T x He HT Hx. pose proof h_pos as Hh. pose proof c_pos as Hc. pose proof kb_pos as Hk. pose proof hc_pos as Hhc.
  set (l := x * em9). assert (Hl : 0 < l) by (apply Rmult_lt_0_compat; [assumption|apply em9_pos]).
  assert (El : x * em9 = l) by reflexivity. assert (El' : x / 10 ^ 9 = l) by (unfold l, em9; lra). clearbody l.
  assert (Hl5 : 0 < l ^ 5) by now apply pow_lt.
  assert (Hc2 : 0 < c ^ 2) by now apply pow_lt.
  set (z := fun T => h * c / (l * kb * T)).
  assert (Hz : forall T, 0 < T -> 0 < z T).
  { intros U HU. apply Rdiv_lt_0_compat; [assumption|]. repeat apply Rmult_lt_0_compat; assumption. }
  assert (Hlk : forall U, 0 < U -> l * kb * U <> 0).
  { intros U HU. apply Rgt_not_eq. repeat apply Rmult_lt_0_compat; assumption. }
  assert (Hexp : forall T, 0 < T -> 0 < exp (z T) - 1).
  { intros U HU. pose proof (exp_increasing 0 (z U) (Hz U HU)) as H. rewrite exp_0 in H. lra. }
  assert (V : forall e U, 0 < U -> black_body e U x = Ok (2 * e * h * c ^ 2 / l ^ 5 / (exp (z U) - 1) * em9)).
  { intros e U HU. unfold black_body. rewrite El. rewrite divide_ok by lra. cbn [bindR].
    rewrite divide_ok by now apply Hlk. cbn [bindR]. fold (z U).
    rewrite divide_ok by (specialize (Hexp U HU); lra). reflexivity. }
  pose proof em9_pos as Hn.
  assert (Hnum : 0 < 2 * ent * h * c ^ 2 / l ^ 5).
  { apply Rdiv_lt_0_compat; [|assumption]. repeat apply Rmult_lt_0_compat; lra. }
  eexists. split; [now apply V|]. split; [|split; [|split]].
  - apply Rmult_lt_0_compat; [|assumption]. apply Rdiv_lt_0_compat; [assumption|now apply Hexp].
  - cbv zeta. rewrite El'. fold (z T). specialize (Hexp T HT).
    unfold em9. field. lra.
  - intros T' v' HT' Hv'. rewrite V in Hv' by lra. injection Hv' as <-.
    apply Rmult_lt_compat_r; [assumption|]. apply Rmult_lt_compat_l; [assumption|].
    assert (P : 0 < exp (z T') - 1) by (apply Hexp; lra). specialize (Hexp T HT).
    apply Rinv_lt_contravar; [now apply Rmult_lt_0_compat|]. apply Rplus_lt_compat_r, exp_increasing.
    unfold z. apply Rmult_lt_compat_l; [assumption|]. apply Rinv_lt_contravar.
    + repeat apply Rmult_lt_0_compat; lra.
    + apply Rmult_lt_compat_l; [|assumption]. now apply Rmult_lt_0_compat.
  - intros k Hk'. rewrite V by assumption. f_equal. specialize (Hexp T HT). field. lra.
Qed.
Print Assumptions C87_black_body.

(** Laser: positive, symmetric about the centre, decreasing away from it, proportional
    to the power. *)
Theorem C87_laser :
  forall p l m, 0 < p -> 0 < l ->
  exists f : R -> R, (forall x, laser p (l ^ 2) m x = Ok (f x)) /\ (forall x, 0 < f x) /\
    (forall d, f (m + d) = f (m - d)) /\
    (forall x y, Rabs (x - m) < Rabs (y - m) -> f y < f x) /\
    (forall k x, laser (k * p) (l ^ 2) m x = Ok (k * f x)) /\
    f (m + l) / f m = exp (- / 2).
Proof.
  intros p l m Hp Hl. exists (fun x => p / sqrt (2 * PI * l ^ 2) * exp (- (x - m) ^ 2 / 2 / l ^ 2)).
  pose proof (pow_lt l 2 Hl) as Hl2. pose proof PI_RGT_0.
  assert (Hs : 0 < sqrt (2 * PI * l ^ 2)) by (apply sqrt_lt_R0; apply Rmult_lt_0_compat; lra).
  assert (Hq : 0 < p / sqrt (2 * PI * l ^ 2)) by now apply Rdiv_lt_0_compat.
  split; [intros x; now apply laser_value|]. split.
  { intros x. apply Rmult_lt_0_compat; [assumption|apply exp_pos]. }
  split. { intros d. do 2 f_equal. field. lra. }
  split.
  { intros x y Hxy. apply Rmult_lt_compat_l; [assumption|]. apply exp_increasing.
    assert ((x - m) ^ 2 < (y - m) ^ 2).
    { rewrite <- (pow2_abs (x - m)), <- (pow2_abs (y - m)). pose proof (Rabs_pos (x - m)). nra. }
    unfold Rdiv. apply Rmult_lt_compat_r; [now apply Rinv_0_lt_compat|]. lra. }
  split. { intros k x. rewrite laser_value by assumption. f_equal. field. lra. }
  replace (- (m + l - m) ^ 2 / 2 / l ^ 2) with (- / 2) by (field; lra).
  replace (- (m - m) ^ 2 / 2 / l ^ 2) with 0 by (field; lra). rewrite exp_0. field. lra.
Qed.
Print Assumptions C87_laser.

(** The default abscissas of a black body start at wavelength zero, where the formula
    divides by zero (NaN in numpy, an error in this model). *)
Theorem C87_default_zero_refuted :
  forall fl tb wl0 a0 ag ad ext T, 0 < T ->
  exists src xi, light_source fl tb wl0 a0 ag ad ext "black body" None "power_density_per_nm" 1
      [("T", ONum T)]%string = Ok src /\ s_xi src = Some xi /\ nth_error xi 0 = Some 0 /\
    snd (spectrum fl tb wl0 a0 ag ad ext src None None None []) = Err ZeroDivisionError.
Proof.
  intros fl tb wl0 a0 ag ad ext T HT.
  set (w := 28977729 / 10 / T). assert (Hw : 0 < w) by (apply Rdiv_lt_0_compat; lra).
  assert (exists n, arange 0 (w * 10) (w / 100) = Ok (map (fun i => 0 + INR i * (w / 100)) (seq 0 (S n)))) as (n & Ha).
  { unfold arange. destruct (Req_EM_T _ _) as [E|E]; [exfalso; lra|].
    pose proof (Rceil_spec ((w * 10 - 0) / (w / 100))) as [_ Hc].
    assert (E2 : (w * 10 - 0) / (w / 100) = 1000) by (field; lra). rewrite E2 in *.
    apply le_IZR in Hc. destruct (Z.to_nat (Rceil 1000)) as [|k] eqn:Ek; [lia|]. exists k. reflexivity. }
  cbn [seq map] in Ha. set (tl := map _ (seq 1 n)) in Ha.
  exists (mk "black body" None (Some ((0 + INR 0 * (w / 100)) :: tl)) (5670367 / 10 ^ 14 * T ^ 4 * 1 / PI * 1)
          [("T", ONum T); ("entendue", ONum 1)]%string "power_density_per_nm" 1 (Some (black_body 1 T))), ((0 + INR 0 * (w / 100)) :: tl).
  assert (E0 : 0 + INR 0 * (w / 100) = 0) by (simpl; lra).
  split; [|split; [reflexivity|split; [cbn [nth_error]; now rewrite E0|]]].
  - unfold light_source, update_function, build. cbn -[get_blackbody pow]. unfold get_blackbody. cbn -[arange black_body pow divide].
    rewrite divide_ok by lra. cbn [bindR]. fold w. rewrite Ha. reflexivity.
  - unfold spectrum. cbn -[power_density_per_nm black_body INR]. unfold power_density_per_nm. cbn [each]. rewrite E0.
    unfold black_body. rewrite Rmult_0_l, pow_i by lia. unfold divide at 1. destruct (Req_EM_T 0 0); [reflexivity|contradiction].
Qed.
Print Assumptions C87_default_zero_refuted.

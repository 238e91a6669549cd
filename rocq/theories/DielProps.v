(** C154, C155: the models of the dielectric constant and the Kramers-Kronig integral. *)
From Coq Require Import Reals String List Arith Bool Lra Lia Psatz Permutation.
From Coquelicot Require Import Coquelicot.
From Verif Require Import Common InterpModel InterpProps TmmModel RiiModel DielModel.
From Coq Require Import List.
Import ListNotations.
Open Scope R_scope.
Open Scope list_scope.

(** * C154: the oscillators *)
(** Their defining equations, [E] in eV. *)
Theorem C154_pole : forall A Ec x eps, dielectric (Poles A Ec) x = Some eps -> let E := 1240 / x in
  Ec ^ 2 <> E ^ 2 -> (eps * RtoC (Ec ^ 2 - E ^ 2))%C = RtoC (A * Ec ^ 2).
Proof.
  intros A Ec x eps H E D. cbn [dielectric] in H. fold E in H. injection H as <-. rewrite <- RtoC_mult. f_equal. field. lra.
Qed.
Lemma pair_neq (a b : R) : (a <> 0 \/ b <> 0) -> ((a, b) : C) <> RtoC 0.
Proof. intros H E. injection E as E1 E2. destruct H; lra. Qed.
Theorem C154_lorentz : forall An En Brn x eps, dielectric (Lorentz An En Brn) x = Some eps -> let E := 1240 / x in
  0 < x -> (Brn <> 0 \/ En ^ 2 <> E ^ 2) ->
  (eps * (RtoC (En ^ 2) - RtoC (E ^ 2) - Ci * RtoC (Brn * E)))%C = RtoC (An * En ^ 2).
Proof.
  intros An En Brn x eps H E Hx D. cbn [dielectric] in H. fold E in H. injection H as <-.
  assert (HE : 0 < E) by (unfold E; apply Rdiv_lt_0_compat; lra).
  replace (RtoC (En ^ 2) - RtoC (E ^ 2) - Ci * RtoC (Brn * E))%C with (((En ^ 2 - E ^ 2)%R, (- (Brn * E))%R) : C).
  2: { unfold Ci, RtoC, Cminus, Cplus, Copp, Cmult. cbn [fst snd]. apply f_equal2; ring. }
  unfold Cdiv. rewrite <- Cmult_assoc, Cinv_l, Cmult_1_r; [reflexivity|]. apply pair_neq. destruct D as [D|D]; [right|left; lra].
  intros Q. assert (Brn * E = 0) by lra. apply Rmult_integral in H. lra.
Qed.
Theorem C154_drude : forall An Brn x eps, dielectric (Drude An Brn) x = Some eps -> let E := 1240 / x in
  0 < x -> (eps * (RtoC (E ^ 2) + Ci * RtoC (Brn * E)))%C = RtoC (- (An * Brn)).
Proof.
  intros An Brn x eps H E Hx. cbn [dielectric] in H. fold E in H. injection H as <-.
  assert (HE : 0 < E) by (unfold E; apply Rdiv_lt_0_compat; lra).
  replace (RtoC (E ^ 2) + Ci * RtoC (Brn * E))%C with (((E ^ 2)%R, (Brn * E)%R) : C).
  2: { unfold Ci, RtoC, Cminus, Cplus, Copp, Cmult. cbn [fst snd]. apply f_equal2; ring. }
  unfold Cdiv. rewrite <- Cmult_assoc, Cinv_l, Cmult_1_r; [f_equal; ring|]. apply pair_neq. left. apply pow_nonzero. lra.
Qed.
(** The half-width of the Gaussian: [Br] is its full width at half maximum. *)
Lemma ln2_pos : 0 < ln 2.
Proof. rewrite <- ln_1. apply ln_increasing; lra. Qed.
Lemma gauss_s_pos Br : 0 < Br -> 0 < gauss_s Br.
Proof. intros H. unfold gauss_s. apply Rdiv_lt_0_compat; [lra|]. apply sqrt_lt_R0. apply ln2_pos. Qed.
Lemma half_max Br : 0 < Br -> exp (- ((Br / 2) / gauss_s Br) ^ 2) = 1 / 2.
Proof.
  intros H. assert (L := ln2_pos). assert (Q : 0 < sqrt (ln 2)) by now apply sqrt_lt_R0.
  replace ((Br / 2 / gauss_s Br) ^ 2) with (sqrt (ln 2) * sqrt (ln 2)).
  - rewrite sqrt_sqrt by lra. rewrite exp_Ropp, exp_ln by lra. lra.
  - unfold gauss_s. field. split; lra.
Qed.
Theorem C154_gauss : forall A Ec Br x, 0 < Br -> let E := 1240 / x in
  exists e1, dielectric (Gauss A Ec Br) x = Some (e1, A * (exp (- 4 * ln 2 * ((E - Ec) / Br) ^ 2) - exp (- 4 * ln 2 * ((E + Ec) / Br) ^ 2))).
Proof.
  intros A Ec Br x HB E. cbn [dielectric]. fold E. eexists. f_equal. f_equal. unfold gauss_e2. assert (L := ln2_pos).
  assert (Q : 0 < sqrt (ln 2)) by now apply sqrt_lt_R0.
  assert (K : forall d, - (d / gauss_s Br) ^ 2 = - 4 * ln 2 * (d / Br) ^ 2).
  { intros d. unfold gauss_s. rewrite <- (sqrt_sqrt (ln 2)) at 2 by lra. field. split; lra. }
  rewrite !K. reflexivity.
Qed.

(** * The model as a sum *)
Definition csum (zs : list C) : C := fold_right Cplus (RtoC 0) zs.
(** The oscillators that are numbers at every wavelength of the list. *)
Lemma sum_models_val : forall os acc xs (f : oscillator -> R -> C),
  (forall o x, In o os -> In x xs -> dielectric o x = Some (f o x)) -> (existsb is_poly os = true -> (length xs <= 1)%nat) -> 
  forall g : R -> C, acc = map (fun x => Some (g x)) xs ->
  sum_models acc os xs = Ok (map (fun x => Some (g x + csum (map (fun o => f o x) os))%C) xs).
Proof.
  induction os as [|o os IH]; intros acc xs f Hf Hp g Ha; cbn [sum_models].
  - rewrite Ha. f_equal. apply map_ext. intros x. cbn. now rewrite Cplus_0_r.
  - unfold dielectric_array. destruct (is_poly o && (1 <? length xs)%nat) eqn:E.
    { apply andb_true_iff in E. destruct E as [E1 E2]. apply Nat.ltb_lt in E2. cbn [existsb] in Hp. rewrite E1 in Hp. specialize (Hp eq_refl). lia. }
    cbn [bindR]. rewrite (IH _ _ f (fun o' x Ho Hx => Hf o' x (or_intror Ho) Hx)) with (g := fun x => (g x + f o x)%C).
    + f_equal. apply map_ext. intros x. cbn [map csum fold_right]. now rewrite Cplus_assoc.
    + intros Q. apply Hp. cbn [existsb]. rewrite Q. apply orb_true_r.
    + rewrite Ha. clear - Hf. induction xs as [|x xs IHx]; [reflexivity|]. cbn [map add_arrays].
      rewrite (Hf o x) by now left. cbn [add_nan]. f_equal. apply IHx. intros. apply Hf; [assumption|now right].
Qed.
Definition all_nm (xs : list R) : Prop := Forall (fun x => 1 / 1000 <= x) xs.
Lemma to_nm_id xs : all_nm xs -> to_nm xs = xs.
Proof.
  intros H. unfold to_nm. replace (existsb _ xs) with false; [reflexivity|]. symmetry. induction H as [|x xs H F IH]; [reflexivity|].
  cbn. destruct (Rlt_dec x (1 / 1000)); [lra|exact IH].
Qed.
(** With at least one oscillator the dielectric constant is, wavelength by wavelength, e_inf plus the
    sum over the oscillators. *)
Theorem C154_sum_partial : forall m xs f, all_nm xs -> oscillators m <> [] ->
  (forall o x, In o (oscillators m) -> In x xs -> dielectric o x = Some (f o x)) ->
  (existsb is_poly (oscillators m) = true -> (length xs <= 1)%nat) ->
  dielectric_constants m xs = Ok (map (fun x => Some (RtoC (e_inf m) + csum (map (fun o => f o x) (oscillators m)))%C) xs).
Proof.
  intros [ei os] xs f Hx Ho Hf Hp. cbn [oscillators e_inf] in *. unfold dielectric_constants. cbn [oscillators e_inf]. rewrite to_nm_id by exact Hx.
  destruct os as [|o os]; [congruence|]. now apply sum_models_val with (g := fun _ => RtoC ei).
Qed.
Lemma csum_perm l l' : Permutation l l' -> csum l = csum l'.
Proof. unfold csum. induction 1 as [|z l l' P IH|y z l|l l' l'' P1 IH1 P2 IH2]; cbn [fold_right]; [reflexivity|now rewrite IH| |congruence]. rewrite !Cplus_assoc. f_equal. apply Cplus_comm. Qed.
(** The order of the oscillators does not matter. *)
Theorem C154_order : forall ei os os' xs f, all_nm xs -> Permutation os os' ->
  (forall o x, In o os -> In x xs -> dielectric o x = Some (f o x)) -> (existsb is_poly os = true -> (length xs <= 1)%nat) ->
  dielectric_constants (Model ei os) xs = dielectric_constants (Model ei os') xs.
Proof.
  intros ei os os' xs f Hx P Hf Hp.
  destruct os as [|o os]. { apply Permutation_nil in P. now subst. }
  destruct os' as [|o' os']. { apply Permutation_sym, Permutation_nil in P. discriminate. }
  rewrite !(C154_sum_partial _ xs f); cbn [oscillators e_inf]; try assumption; try discriminate.
  - f_equal. apply map_ext. intros x. f_equal. f_equal. apply csum_perm. now apply Permutation_map.
  - intros q x Hq. apply Hf. now apply (Permutation_in _ (Permutation_sym P)).
  - intros Q. apply Hp. apply existsb_exists in Q. destruct Q as (q & Q1 & Q2). apply existsb_exists. exists q. split; [|exact Q2].
    now apply (Permutation_in _ (Permutation_sym P)).
Qed.
(** Without an oscillator an array of wavelengths gives a single number; two wavelengths do not go
    through a segment model at all. *)
Theorem C154_shape_refuted :
  (exists m xs e, all_nm xs /\ dielectric_constants m xs = Ok e /\ length e <> length xs) /\
  (exists m t xs, oscillators m = [PolySegment t] /\ all_nm xs /\ (forall x, In x xs -> dielectric (PolySegment t) x <> None) /\ 
     dielectric_constants m xs = Err ValueError).
Proof.
  split.
  - exists (Model 1 []), [500; 600]. eexists. split; [repeat constructor; lra|]. split; [reflexivity|]. cbn. lia.
  - exists (Model 1 [PolySegment {| t_x := [0; 5]; t_y := [1; 1]; t_kind := Linear; t_bounds_error := false; t_fill := None |}]).
    eexists. exists [620; 1240]. split; [reflexivity|]. split; [repeat constructor; lra|]. split.
    + intros x Hx. cbn [dielectric]. unfold call. cbn [t_bounds_error andb map]. unfold below, above. cbn [t_x t_fill t_kind t_y length Nat.sub nth].
      assert (B : 0 <= 1240 / x <= 5) by (destruct Hx as [<-|[<-|[]]]; lra).
      destruct (Rlt_dec (1240 / x) 0); [lra|]. destruct (Rlt_dec 5 (1240 / x)); [lra|]. cbn [orb]. discriminate.
    + unfold dielectric_constants. rewrite to_nm_id by (repeat constructor; lra). reflexivity.
Qed.
(** Wavelengths in metres, below one millimetre at least for one of them. *)
Theorem C154_units : forall m xs, all_nm xs -> (exists x, In x xs /\ x < 10 ^ 6) ->
  dielectric_constants m (map (fun x => x * / 10 ^ 9) xs) = dielectric_constants m xs.
Proof.
  intros m xs Hx (x & Hin & Hl). unfold dielectric_constants. rewrite (to_nm_id xs Hx).
  assert (E : to_nm (map (fun x => x * / 10 ^ 9) xs) = xs).
  { unfold to_nm. replace (existsb _ _) with true.
    - rewrite map_map. rewrite <- (map_id xs) at 2. apply map_ext. intros a. field.
    - symmetry. apply existsb_exists. exists (x * / 10 ^ 9). split; [now apply (in_map (fun x => x * / 10 ^ 9))|].
      destruct (Rlt_dec (x * / 10 ^ 9) (1 / 1000)) as [|N]; [reflexivity|]. exfalso. apply N. apply Rmult_lt_reg_r with (10 ^ 9); [lra|].
      rewrite Rmult_assoc, Rinv_l by lra. lra. }
  now rewrite E.
Qed.

(** * Passive media *)
Lemma Cmod_ge_Re z : Rabs (Re z) <= Cmod z.
Proof.
  unfold Cmod, Re. rewrite <- (sqrt_Rsqr_abs (fst z)). apply sqrt_le_1_alt. unfold Rsqr. assert (Q := pow2_ge_0 (snd z)). nra.
Qed.
Lemma Cmod_sq z : Cmod z * Cmod z = Re z ^ 2 + Im z ^ 2.
Proof. unfold Cmod, Re, Im. apply sqrt_sqrt. assert (A := pow2_ge_0 (fst z)). assert (B := pow2_ge_0 (snd z)). lra. Qed.
Lemma csqrt_spec z : 0 <= Im z -> (np_csqrt z * np_csqrt z)%C = z /\ 0 <= Re (np_csqrt z) /\ 0 <= Im (np_csqrt z).
Proof.
  intros H. assert (A := Cmod_ge_Re z). assert (M := Cmod_sq z). assert (B := Rle_abs (Re z)). assert (B' := Rle_abs (- Re z)). rewrite Rabs_Ropp in B'.
  assert (P : 0 <= (Cmod z + Re z) / 2) by lra. assert (Q : 0 <= (Cmod z - Re z) / 2) by lra.
  unfold np_csqrt. destruct (Rlt_dec (Im z) 0); [lra|]. rewrite Rmult_1_l. cbn [Re Im fst snd]. split; [|split; apply sqrt_pos].
  unfold Cmult. cbn [fst snd]. rewrite !sqrt_sqrt by assumption. rewrite (Rmult_comm (sqrt ((Cmod z - Re z) / 2))), <- sqrt_mult by assumption.
  replace ((Cmod z + Re z) / 2 * ((Cmod z - Re z) / 2)) with ((Im z / 2) * (Im z / 2)) by nra. rewrite sqrt_square by lra.
  destruct z as [a b]. cbn [Re Im fst snd] in *. apply f_equal2; lra.
Qed.
(** Physical parameters: amplitudes, widths and energies that are not negative. *)
Definition physical (o : oscillator) : Prop :=
  match o with
  | Poles A Ec => True
  | Lorentz An En Brn => 0 <= An /\ 0 <= Brn
  | Gauss A Ec Br => 0 <= A /\ 0 <= Ec /\ 0 < Br
  | Drude An Brn => 0 <= An
  | Cauchy An Bn Cn Ak Bk Ck => 0 <= An /\ 0 <= Bn /\ 0 <= Cn /\ 0 <= Ak
  | PolySegment t => increasing (t_x t) /\ length (t_y t) = length (t_x t) /\ (2 <= length (t_x t))%nat /\ t_kind t = Linear /\
      t_bounds_error t = false /\ t_fill t = None /\ Forall (fun v => 0 <= v) (t_y t)
  end.
Lemma Im_div (a c d : R) : Im (RtoC a / (c, d))%C = - a * d / (c ^ 2 + d ^ 2).
Proof. unfold Cdiv, Cinv, Cmult, RtoC, Im. cbn [fst snd]. unfold Rdiv. ring. Qed.
Lemma linear_nonneg x y v : increasing x -> length y = length x -> (2 <= length x)%nat -> Forall (fun v => 0 <= v) y ->
  at_ x 0 <= v <= at_ x (length x - 1) -> 0 <= call_linear x y v.
Proof.
  intros Hi Hl H2 Hy Hv. destruct (cell_exists x v H2 Hi Hv) as (i & L & B).
  rewrite (call_linear_cell x y v i Hi L B).
  assert (N : forall j, 0 <= at_ y j).
  { intros j. destruct (le_lt_dec (length y) j) as [G|G]; [rewrite nth_overflow by exact G; lra|].
    apply (proj1 (Forall_forall _ _) Hy). now apply nth_In. }
  assert (Lt : at_ x i < at_ x (S i)) by (apply Hi; lia).
  assert (Q : 0 <= (v - at_ x i) / (at_ x (S i) - at_ x i) <= 1).
  { split; [apply Rdiv_le_0_compat; lra|]. apply Rmult_le_reg_r with (at_ x (S i) - at_ x i); [lra|]. unfold Rdiv. rewrite Rmult_assoc, Rinv_l by lra. lra. }
  assert (N1 := N i). assert (N2 := N (S i)). set (q := (v - at_ x i) / (at_ x (S i) - at_ x i)) in *. clearbody q. nra.
Qed.
Lemma dielectric_passive o x e : 0 < x -> physical o -> dielectric o x = Some e -> 0 <= Im e.
Proof.
  intros Hx Ho He. assert (HE : 0 < 1240 / x) by (apply Rdiv_lt_0_compat; lra). set (E := 1240 / x) in *.
  destruct o as [A Ec|An En Brn|A Ec Br|An Brn|An Bn Cn Ak Bk Ck|t]; cbn [physical] in Ho; cbn [dielectric] in He; fold E in He.
  - injection He as <-. cbn. lra.
  - injection He as <-. rewrite Im_div. destruct Ho as [H1 H2].
    assert (N : 0 <= - (An * En ^ 2) * - (Brn * E)).
    { assert (0 <= An * En ^ 2) by (apply Rmult_le_pos; [exact H1|apply pow2_ge_0]). assert (0 <= Brn * E) by (apply Rmult_le_pos; lra). nra. }
    assert (D : 0 <= (En ^ 2 - E ^ 2) ^ 2 + (- (Brn * E)) ^ 2) by (assert (X := pow2_ge_0 (En ^ 2 - E ^ 2)); assert (Y := pow2_ge_0 (- (Brn * E))); lra).
    unfold Rdiv. destruct D as [D|D]; [apply Rmult_le_pos; [exact N|left; now apply Rinv_0_lt_compat]|].
    assert (Z : Brn * E = 0). { assert (X := pow2_ge_0 (En ^ 2 - E ^ 2)). assert (Y := pow2_ge_0 (Brn * E)). nra. }
    rewrite Z. rewrite Ropp_0, Rmult_0_r, Rmult_0_l. lra.
  - injection He as <-. cbn [Im snd]. destruct Ho as (H1 & H2 & H3). unfold gauss_e2. cbv zeta. assert (P := gauss_s_pos Br H3).
    apply Rmult_le_pos; [exact H1|]. assert (exp (- ((E + Ec) / gauss_s Br) ^ 2) <= exp (- ((E - Ec) / gauss_s Br) ^ 2)); [|lra].
    assert (K : ((E - Ec) / gauss_s Br) ^ 2 <= ((E + Ec) / gauss_s Br) ^ 2).
    { unfold Rdiv. rewrite !Rpow_mult_distr. apply Rmult_le_compat_r; [apply pow2_ge_0|nra]. }
    destruct K as [K|K]; [left; apply exp_increasing; lra|rewrite K; lra].
  - injection He as <-. rewrite Im_div. assert (N : 0 <= - (- An * Brn) * (Brn * E)).
    { replace (- (- An * Brn) * (Brn * E)) with (An * (Brn ^ 2 * E)) by ring. apply Rmult_le_pos; [exact Ho|].
      apply Rmult_le_pos; [apply pow2_ge_0|lra]. }
    apply Rmult_le_pos; [exact N|]. left. apply Rinv_0_lt_compat. assert (0 < E ^ 2) by (apply pow_lt; lra).
    assert (X := pow2_ge_0 E). assert (Y := pow2_ge_0 (Brn * E)). assert (0 < (E ^ 2) ^ 2) by (apply pow_lt; lra). lra.
  - cbv zeta in He. injection He as <-. destruct Ho as (H1 & H2 & H3 & H4). assert (Hl : 0 < x / 1000) by lra.
    set (N := An + Bn / (x / 1000) ^ 2 + Cn / (x / 1000) ^ 4). set (K := Ak * exp (Bk * (E - Ck))).
    assert (HN : 0 <= N).
    { unfold N. assert (0 <= Bn / (x / 1000) ^ 2) by (apply Rdiv_le_0_compat; [lra|apply pow_lt; lra]).
      assert (0 <= Cn / (x / 1000) ^ 4) by (apply Rdiv_le_0_compat; [lra|apply pow_lt; lra]). lra. }
    assert (HK : 0 <= K) by (unfold K; apply Rmult_le_pos; [exact H4|left; apply exp_pos]).
    change (0 <= N * K + K * N). assert (G : 0 <= N * K) by now apply Rmult_le_pos. lra.
  - destruct Ho as (H1 & H2 & H3 & H4 & H5 & H6 & H7). unfold call in He. rewrite H5 in He. cbn [andb map] in He.
    destruct (below t E || above t E) eqn:B; [rewrite H6 in He; discriminate|]. rewrite H4 in He. injection He as <-. cbn [Im snd].
    apply orb_false_iff in B. destruct B as [B1 B2]. unfold below in B1. unfold above in B2.
    destruct (Rlt_dec E (at_ (t_x t) 0)); [discriminate|]. destruct (Rlt_dec (at_ (t_x t) (length (t_x t) - 1)) E); [discriminate|].
    apply linear_nonneg; try assumption. lra.
Qed.
Lemma Im_Cplus (a b : C) : Im (a + b)%C = Im a + Im b.
Proof. reflexivity. Qed.
Lemma csum_Im zs : (forall z, In z zs -> 0 <= Im z) -> 0 <= Im (csum zs).
Proof.
  induction zs as [|z zs IH]; intros H; [cbn; lra|]. change (csum (z :: zs)) with (z + csum zs)%C. rewrite Im_Cplus.
  assert (H1 := H z (or_introl eq_refl)). assert (H2 := IH (fun w Hw => H w (or_intror Hw))). lra.
Qed.
Lemma nth_map_some {X Y} (f : X -> Y) l i y : nth_error (map f l) i = Some y -> exists x, nth_error l i = Some x /\ f x = y.
Proof. rewrite nth_error_map. destruct (nth_error l i) as [x|]; [|discriminate]. intros H. injection H as <-. now exists x. Qed.
(** Every oscillator with physical parameters absorbs, so does their sum, and [n_and_k] returns a
    square root of the dielectric constant with n and k not negative. *)
Theorem C154_passive_partial : forall m xs f, all_nm xs -> forallb is_pole (oscillators m) = false ->
  Forall physical (oscillators m) ->
  (forall o x, In o (oscillators m) -> In x xs -> dielectric o x = Some (f o x)) ->
  (existsb is_poly (oscillators m) = true -> (length xs <= 1)%nat) ->
  exists eps nk, dielectric_constants m xs = Ok (map Some eps) /\ n_and_k m xs = Ok (map Some nk) /\ length eps = length xs /\
    length nk = length xs /\
    forall i e q, nth_error eps i = Some e -> nth_error nk i = Some q -> 0 <= Im e /\ 0 <= Re q /\ 0 <= Im q /\ (q * q)%C = e.
Proof.
  intros m xs f Hx Hc Hp Hf Hs. assert (Ho : oscillators m <> []) by (intros E; rewrite E in Hc; discriminate).
  set (g := fun x => (RtoC (e_inf m) + csum (map (fun o => f o x) (oscillators m)))%C).
  assert (ED : dielectric_constants m xs = Ok (map Some (map g xs))) by (rewrite map_map; now apply C154_sum_partial).
  exists (map g xs), (map (fun x => np_csqrt (g x)) xs). split; [exact ED|]. split.
  { unfold n_and_k. rewrite ED. cbn [bindR]. rewrite Hc, !map_map. reflexivity. }
  rewrite !map_length. split; [reflexivity|]. split; [reflexivity|]. intros i e q He Hq.
  apply nth_map_some in He. destruct He as (x & Ex & <-). rewrite nth_error_map, Ex in Hq. injection Hq as <-.
  assert (Hin : In x xs) by now apply nth_error_In with i.
  assert (Px : 0 < x) by (assert (L := proj1 (Forall_forall _ _) Hx x Hin); cbn beta in L; lra).
  assert (P : 0 <= Im (g x)).
  { assert (Q : 0 <= Im (csum (map (fun o => f o x) (oscillators m)))).
    { apply csum_Im. intros z Hz. apply in_map_iff in Hz. destruct Hz as (o & <- & Hoin).
      apply (dielectric_passive o x); [exact Px|now apply (proj1 (Forall_forall _ _) Hp)|now apply Hf]. }
    unfold g. rewrite Im_Cplus. cbn [RtoC Im snd]. lra. }
  destruct (csqrt_spec (g x) P) as (S1 & S2 & S3). repeat split; assumption.
Qed.
(** With poles only a negative dielectric constant has no index: nan comes out. *)
Theorem C154_poles_refuted : exists m xs e, all_nm xs /\ dielectric_constants m xs = Ok [Some (RtoC e)] /\ e < 0 /\ n_and_k m xs = Ok [None].
Proof.
  exists (Model 0 [Poles 3 1]), [620], (0 + 3 * 1 ^ 2 / (1 ^ 2 - (1240 / 620) ^ 2)).
  assert (X : all_nm [620]) by (repeat constructor; lra).
  assert (D : dielectric_constants (Model 0 [Poles 3 1]) [620] = Ok [Some (RtoC (0 + 3 * 1 ^ 2 / (1 ^ 2 - (1240 / 620) ^ 2)))]).
  { unfold dielectric_constants. rewrite to_nm_id by exact X. cbn. now rewrite <- RtoC_plus. }
  assert (V : 0 + 3 * 1 ^ 2 / (1 ^ 2 - (1240 / 620) ^ 2) = -1) by (replace (1240 / 620) with 2 by lra; field).
  split; [exact X|]. split; [exact D|]. split; [rewrite V; lra|]. unfold n_and_k. rewrite D. cbn [bindR map oscillators forallb is_pole andb].
  rewrite V. unfold np_sqrt. cbn [RtoC Re fst]. destruct (Rlt_dec (-1) 0); [reflexivity|lra].
Qed.
(** A Cauchy oscillator on its own gives back its n and k. *)
Theorem C154_cauchy : forall An Bn Cn Ak Bk Ck x, 1 / 1000 <= x -> let E := 1240 / x in let l := x / 1000 in
  let N := An + Bn / l ^ 2 + Cn / l ^ 4 in let K := Ak * exp (Bk * (E - Ck)) in
  0 < N -> 0 <= K -> n_and_k (Model 0 [Cauchy An Bn Cn Ak Bk Ck]) [x] = Ok [Some (N, K)].
Proof.
  intros An Bn Cn Ak Bk Ck x Hx E l N K HN HK. unfold n_and_k, dielectric_constants.
  rewrite to_nm_id by (constructor; [exact Hx|constructor]). cbn [oscillators e_inf map sum_models].
  unfold dielectric_array. cbn [is_poly andb bindR map dielectric add_arrays add_nan sum_models forallb is_pole].
  fold E l. fold N K. do 3 f_equal. rewrite Cplus_0_l.
  assert (P : 0 <= Im ((N, K) * (N, K))%C) by (unfold Cmult; cbn [Im fst snd]; nra).
  destruct (csqrt_spec _ P) as (S1 & S2 & S3). set (q := np_csqrt ((N, K) * (N, K))%C) in *. clearbody q. destruct q as [a b].
  unfold Cmult in S1. cbn [fst snd Re Im] in *. injection S1 as A1 A2.
  assert (AB : a * b = N * K) by lra.
  assert (Q : (a * a + b * b) * (a * a + b * b) = (N * N + K * K) * (N * N + K * K)).
  { replace ((a * a + b * b) * (a * a + b * b)) with ((a * a - b * b) * (a * a - b * b) + 4 * (a * b) * (a * b)) by ring. rewrite A1, AB. ring. }
  assert (Q2 : a * a + b * b = N * N + K * K) by nra.
  assert (a = N) by nra. assert (b = K) by nra. now subst.
Qed.
(** * Editing the list *)
(** The constructors: the documented names, arguments and defaults. *)
Fixpoint value (k : string) (d : R) (kw : kwargs) : R :=
  match kw with (k', Num r) :: kw' => if String.eqb k' k then r else value k d kw' | _ :: kw' => value k d kw' | [] => d end.
Definition numbers (ks : list string) (kw : kwargs) : Prop := Forall (fun p => In (fst p) ks /\ exists r, snd p = Num r) kw.
Lemma get_value k d ks kw : numbers ks kw -> get k d kw = Ok (value k d kw).
Proof.
  unfold get. induction 1 as [|[k' v] kw [H1 [r H2]] F IH]; [reflexivity|]. cbn [snd] in H2. subst v. cbn [find fst value].
  destruct (String.eqb k' k); [reflexivity|exact IH].
Qed.
Lemma only_numbers ks kw : numbers ks kw -> only ks kw = true.
Proof.
  unfold only. induction 1 as [|[k' v] kw [H1 H2] F IH]; [reflexivity|]. cbn [forallb fst] in *. rewrite IH, andb_true_r. apply existsb_exists.
  exists k'. split; [exact H1|apply String.eqb_refl].
Qed.
Theorem C154_construct : forall kw,
  (numbers ["A"; "Ec"]%string kw -> construct "poles" kw = Ok (Poles (value "A" 0 kw) (value "Ec" 5 kw))) /\
  (numbers ["An"; "En"; "Brn"]%string kw -> construct "lorentz" kw = Ok (Lorentz (value "An" 0 kw) (value "En" 2 kw) (value "Brn" (1 / 10) kw))) /\
  (numbers ["A"; "Ec"; "Br"]%string kw -> construct "gauss" kw = Ok (Gauss (value "A" 0 kw) (value "Ec" 2 kw) (value "Br" (1 / 10) kw))) /\
  (numbers ["An"; "Brn"]%string kw -> construct "drude" kw = Ok (Drude (value "An" 0 kw) (value "Brn" (1 / 10) kw))) /\
  (numbers ["An"; "Bn"; "Cn"; "Ak"; "Bk"; "Ck"]%string kw -> construct "cauchy" kw =
     Ok (Cauchy (value "An" 0 kw) (value "Bn" 0 kw) (value "Cn" 0 kw) (value "Ak" 0 kw) (value "Bk" 0 kw) (value "Ck" 0 kw))) /\
  (forall e v, (2 <= length e)%nat -> length v = length e -> exists t, construct "polysegment" [("energy"%string, Arr e); ("e2"%string, Arr v)] = Ok (PolySegment t) /\
     t_x t = e /\ t_y t = v /\ t_kind t = Linear /\ t_fill t = None /\ t_bounds_error t = false) /\
  (forall name m, ~ In name ["poles"; "lorentz"; "drude"; "cauchy"; "gauss"; "polysegment"]%string -> add_oscillator name kw m = Err AssertionError) /\
  (forall name k v m, In name ["poles"; "lorentz"; "drude"; "cauchy"; "gauss"; "polysegment"]%string -> In (k, v) kw ->
     ~ In k ["A"; "Ec"; "Br"; "An"; "Bn"; "Cn"; "Ak"; "Bk"; "Ck"; "En"; "Brn"; "energy"; "e2"]%string -> add_oscillator name kw m = Err TypeError).
Proof.
  intros kw. repeat split.
  1-5: intros H; cbv [construct String.eqb Ascii.eqb Bool.eqb]; rewrite (only_numbers _ _ H), ?(get_value _ _ _ _ H); reflexivity.
  - intros e v H2 Hl. unfold construct. cbn [String.eqb Ascii.eqb Bool.eqb]. change (only _ _) with true. cbv iota. unfold get_array. cbn [find fst String.eqb Ascii.eqb Bool.eqb bindR].
    unfold interp1d. rewrite Hl, Nat.eqb_refl. cbn [negb]. replace (length e <? 2)%nat with false by (symmetry; apply Nat.ltb_ge; lia). cbn [bindR].
    eexists. repeat split; reflexivity.
  - intros name m H. unfold add_oscillator, construct. cbn in H.
    repeat match goal with |- context [String.eqb name ?x] => destruct (String.eqb_spec name x) as [->|_]; [exfalso; tauto|] end. reflexivity.
  - intros name k v m Hn Hk Hb.
    assert (O : forall ks, (forall x, In x ks -> In x ["A"; "Ec"; "Br"; "An"; "Bn"; "Cn"; "Ak"; "Bk"; "Ck"; "En"; "Brn"; "energy"; "e2"]%string) -> only ks kw = false).
    { intros ks Hs. unfold only. destruct (forallb (fun p => existsb (String.eqb (fst p)) ks) kw) eqn:E; [|reflexivity]. exfalso.
      rewrite forallb_forall in E. specialize (E _ Hk). apply existsb_exists in E. destruct E as (x & Hx & Ex). apply String.eqb_eq in Ex. cbn [fst] in Ex. subst x.
      apply Hb. now apply Hs. }
    unfold add_oscillator.
    cbn in Hn. repeat destruct Hn as [<-|Hn]; [..|destruct Hn]; cbv [construct String.eqb Ascii.eqb Bool.eqb]; rewrite O; try reflexivity; cbn; tauto.
Qed.
(** What is added can be removed again by its number, counted from one; another answer than yes, and
    a number that is not there, change nothing. *)
Theorem C154_edit : forall name kw m m', add_oscillator name kw m = Ok m' ->
  length (oscillators m') = S (length (oscillators m)) /\
  (forall answer, In answer ["Y"; "y"; ""]%string -> remove_oscillator (length (oscillators m')) answer m' = Ok m) /\
  (forall idx answer, ~ In answer ["Y"; "y"; "Yy"; ""]%string -> (1 <= idx <= length (oscillators m'))%nat -> remove_oscillator idx answer m' = Ok m') /\
  (forall idx answer, (idx = 0 \/ length (oscillators m') < idx)%nat -> remove_oscillator idx answer m' = Err AssertionError).
Proof.
  intros name kw [ei os] m' H. unfold add_oscillator in H. destruct (construct name kw) as [o|]; [|discriminate]. cbn [bindR] in H. injection H as <-.
  cbn [oscillators e_inf]. assert (L : length (os ++ [o]) = S (length os)) by (rewrite app_length; cbn; lia). split; [exact L|]. repeat split.
  - intros answer Ha. unfold remove_oscillator. cbn [oscillators e_inf]. rewrite L, Nat.leb_refl. cbn [Nat.ltb Nat.leb andb].
    assert (Y : in_Yy answer = true) by (destruct Ha as [<-|[<-|[<-|[]]]]; reflexivity). rewrite Y.
    cbn [Nat.sub]. rewrite Nat.sub_0_r, firstn_app, Nat.sub_diag, firstn_all, skipn_all2 by lia. cbn [firstn]. now rewrite !app_nil_r.
  - intros idx answer Ha Hi. unfold remove_oscillator. cbn [oscillators]. replace (0 <? idx)%nat with true by (symmetry; apply Nat.ltb_lt; lia).
    replace (idx <=? length (os ++ [o]))%nat with true by (symmetry; apply Nat.leb_le; lia). cbn [andb].
    replace (in_Yy answer) with false; [reflexivity|]. symmetry. destruct (in_Yy answer) eqn:E; [|reflexivity]. exfalso. apply Ha.
    unfold in_Yy in E. rewrite !orb_true_iff, !String.eqb_eq in E. cbn. intuition.
  - intros idx answer [->|Hi]; unfold remove_oscillator; [reflexivity|]. cbn [oscillators].
    replace (idx <=? length (os ++ [o]))%nat with false by (symmetry; apply Nat.leb_gt; lia). now rewrite andb_false_r.
Qed.
(** Adding an oscillator adds its dielectric constant. *)
Theorem C154_add : forall name kw m m' o xs f, add_oscillator name kw m = Ok m' -> construct name kw = Ok o -> all_nm xs -> oscillators m <> [] ->
  (forall o' x, In o' (oscillators m ++ [o]) -> In x xs -> dielectric o' x = Some (f o' x)) ->
  (existsb is_poly (oscillators m ++ [o]) = true -> (length xs <= 1)%nat) ->
  exists e, dielectric_constants m xs = Ok (map (fun x => Some (e x)) xs) /\
            dielectric_constants m' xs = Ok (map (fun x => Some (e x + f o x)%C) xs).
Proof.
  intros name kw m m' o xs f H Hc Hx Ho Hf Hp. unfold add_oscillator in H. rewrite Hc in H. cbn [bindR] in H. injection H as <-.
  exists (fun x => (RtoC (e_inf m) + csum (map (fun o => f o x) (oscillators m)))%C). split.
  - apply C154_sum_partial; [exact Hx|exact Ho| |].
    + intros o' x Ho'. apply Hf. apply in_or_app. now left.
    + intros Q. apply Hp. rewrite existsb_app, Q. reflexivity.
  - rewrite (C154_sum_partial _ xs f); cbn [oscillators e_inf]; try assumption.
    + f_equal. apply map_ext. intros x. f_equal. rewrite map_app. cbn [map]. rewrite <- Cplus_assoc. f_equal.
      clear. induction (oscillators m) as [|o' os IH]; cbn [map app csum fold_right].
      * now rewrite Cplus_0_l, Cplus_0_r.
      * fold (csum (map (fun o => f o x) os ++ [f o x])). rewrite IH. now rewrite Cplus_assoc.
    + destruct (oscillators m); discriminate.
Qed.
(** Two oscillators at 1240 nm, that is 1 eV: 0 + (2 + 2i) + (-1 + i). *)
Example C154_example : exists nk, n_and_k (Model 0 [Lorentz 3 2 3; Drude 2 1]) [1240] = Ok [Some nk] /\ 0 <= Re nk /\ 0 <= Im nk /\ (nk * nk)%C = (1, 3).
Proof.
  set (f := fun o x => match dielectric o x with Some z => z | None => RtoC 0 end).
  destruct (C154_passive_partial (Model 0 [Lorentz 3 2 3; Drude 2 1]) [1240] f) as (eps & nk & D & N & L1 & L2 & H).
  - constructor; [lra|constructor].
  - reflexivity.
  - repeat constructor; cbn; lra.
  - intros o x Ho Hx. destruct Ho as [<-|[<-|[]]]; reflexivity.
  - discriminate.
  - destruct eps as [|e [|e' eps]]; try discriminate. destruct nk as [|q [|q' nk]]; try discriminate.
    exists q. split; [exact N|]. destruct (H 0%nat e q eq_refl eq_refl) as (A & B & C' & F). split; [exact B|]. split; [exact C'|]. rewrite F.
    unfold dielectric_constants in D. rewrite to_nm_id in D by (constructor; [lra|constructor]).
    cbn [oscillators e_inf map sum_models dielectric_array is_poly andb bindR dielectric add_arrays add_nan] in D. injection D as D1. rewrite <- D1.
    replace (1240 / 1240) with 1 by lra. unfold Cplus, Cdiv, Cinv, Cmult, RtoC. cbn [fst snd]. apply f_equal2; field.
Qed.
Example C154_example_edit : exists m', add_oscillator "drude" [("An"%string, Num 2)] (Model 1 [Poles 3 2]) = Ok m' /\ oscillators m' = [Poles 3 2; Drude 2 (1 / 10)] /\
  remove_oscillator 2 "y" m' = Ok (Model 1 [Poles 3 2]).
Proof.
  eexists. split; [reflexivity|]. split; [reflexivity|].
  destruct (C154_edit "drude" [("An"%string, Num 2)] (Model 1 [Poles 3 2]) _ eq_refl) as (_ & H & _). apply (H "y"%string). cbn. auto.
Qed.

(** * C155: the Kramers-Kronig integral *)
(** The energy is inside the range of the integral by more than the half-width that is left out. *)
Definition inside (mini maxi E : R) : Prop := Rmax mini 0 <= E - 1 / 100 /\ E + 1 / 100 <= maxi.
Lemma integrable_parts (e2 : R -> R) mini maxi E : inside mini maxi E -> (forall w, Rmax mini 0 <= w <= maxi -> continuous e2 w) ->
  ex_RInt (kk_integrand e2 E) (Rmax mini 0) (E - 1 / 100) /\ ex_RInt (kk_integrand e2 E) (E + 1 / 100) maxi.
Proof.
  intros [H1 H2] Hc. assert (H0 := Rmax_r mini 0). set (lo := Rmax mini 0) in *. clearbody lo.
  assert (K : forall w, lo <= w <= maxi -> (w <= E - 1 / 100 \/ E + 1 / 100 <= w) -> continuous (kk_integrand e2 E) w).
  { intros w Hw Hd. unfold kk_integrand. unfold Rdiv. apply (continuous_mult (fun w => w * e2 w) (fun w => / (w ^ 2 - E ^ 2))).
    - apply (continuous_mult (fun w => w) e2); [apply continuous_id|now apply Hc].
    - apply (continuous_comp (fun w => w ^ 2 - E ^ 2) Rinv).
      + apply (@ex_derive_continuous R_AbsRing R_NormedModule). auto_derive. exact I.
      + apply continuous_Rinv. nra. }
  split; apply (@ex_RInt_continuous R_CompleteNormedModule); intros z Hz.
  - rewrite Rmin_left, Rmax_right in Hz by lra. apply K; [lra|left; lra].
  - rewrite Rmin_left, Rmax_right in Hz by lra. apply K; [lra|right; lra].
Qed.
(** Linearity: the real part of a sum of absorptions is the sum of the real parts. *)
Theorem C155_linear : forall (e2 f2 : R -> R) a b mini maxi E, inside mini maxi E ->
  (forall w, Rmax mini 0 <= w <= maxi -> continuous e2 w /\ continuous f2 w) ->
  Epsi1 (fun w => a * e2 w + b * f2 w) mini maxi E = a * Epsi1 e2 mini maxi E + b * Epsi1 f2 mini maxi E.
Proof.
  intros e2 f2 a b mini maxi E H Hc.
  destruct (integrable_parts e2 mini maxi E H (fun w Hw => proj1 (Hc w Hw))) as [A1 A2].
  destruct (integrable_parts f2 mini maxi E H (fun w Hw => proj2 (Hc w Hw))) as [B1 B2].
  assert (K : forall lo hi, ex_RInt (kk_integrand e2 E) lo hi -> ex_RInt (kk_integrand f2 E) lo hi ->
    RInt (kk_integrand (fun w => a * e2 w + b * f2 w) E) lo hi = a * RInt (kk_integrand e2 E) lo hi + b * RInt (kk_integrand f2 E) lo hi).
  { intros lo hi I1 I2. apply is_RInt_unique.
    apply (is_RInt_ext (fun w => plus (scal a (kk_integrand e2 E w)) (scal b (kk_integrand f2 E w)))).
    - intros w _. change (@eq R (a * kk_integrand e2 E w + b * kk_integrand f2 E w) (kk_integrand (fun w => a * e2 w + b * f2 w) E w)).
      unfold kk_integrand, Rdiv. ring.
    - apply (is_RInt_plus (V := R_NormedModule)); apply (is_RInt_scal (V := R_NormedModule));
        now apply (RInt_correct (V := R_CompleteNormedModule)). }
  unfold Epsi1. cbv zeta. rewrite !K by assumption. ring.
Qed.
(** Sign: absorption above the energy raises the dielectric constant, absorption below lowers it. *)
Theorem C155_sign : forall (e2 : R -> R) mini maxi E, inside mini maxi E -> (forall w, Rmax mini 0 <= w <= maxi -> continuous e2 w /\ 0 <= e2 w) ->
  ((forall w, Rmax mini 0 <= w < E -> e2 w = 0) -> 0 <= Epsi1 e2 mini maxi E) /\
  ((forall w, E < w <= maxi -> e2 w = 0) -> Epsi1 e2 mini maxi E <= 0).
Proof.
  intros e2 mini maxi E H Hc. destruct (integrable_parts e2 mini maxi E H (fun w Hw => proj1 (Hc w Hw))) as [A1 A2].
  destruct H as [H1 H2]. assert (H0 := Rmax_r mini 0). set (lo := Rmax mini 0) in *.
  assert (P : 0 < 2 / PI) by (apply Rdiv_lt_0_compat; [lra|apply PI_RGT_0]).
  assert (Z : forall a b, a <= b -> (forall w, a < w < b -> kk_integrand e2 E w = 0) -> RInt (kk_integrand e2 E) a b = 0).
  { intros a b Hab Hz. rewrite (RInt_ext _ (fun _ => 0)).
    - rewrite RInt_const. change (@eq R ((b - a) * 0) 0). ring.
    - intros w Hw. rewrite Rmin_left, Rmax_right in Hw by lra. now apply Hz. }
  assert (U : 0 <= RInt (kk_integrand e2 E) (E + 1 / 100) maxi).
  { apply RInt_ge_0; [lra|exact A2|]. intros w Hw. unfold kk_integrand. apply Rdiv_le_0_compat; [|nra]. apply Rmult_le_pos; [lra|]. apply Hc. lra. }
  assert (L : RInt (kk_integrand e2 E) lo (E - 1 / 100) <= 0).
  { assert (Q : 0 <= RInt (fun w => - kk_integrand e2 E w) lo (E - 1 / 100)).
    { apply RInt_ge_0; [lra|now apply (@ex_RInt_opp R_NormedModule)|]. intros w Hw. unfold kk_integrand.
      replace (- (w * e2 w / (w ^ 2 - E ^ 2))) with (w * e2 w / (E ^ 2 - w ^ 2)) by (field; nra).
      apply Rdiv_le_0_compat; [|nra]. apply Rmult_le_pos; [lra|]. apply Hc. lra. }
    rewrite (@RInt_opp R_CompleteNormedModule) in Q by exact A1. change (0 <= - RInt (kk_integrand e2 E) lo (E - 1 / 100)) in Q. lra. }
  unfold Epsi1. cbv zeta. fold lo. split; intros Hz.
  - rewrite (Z lo (E - 1 / 100)); [apply Rmult_le_pos; lra|lra|]. intros w Hw. unfold kk_integrand. rewrite Hz by lra. unfold Rdiv. ring.
  - rewrite (Z (E + 1 / 100) maxi); [nra|lra|]. intros w Hw. unfold kk_integrand. rewrite Hz by lra. unfold Rdiv. ring.
Qed.
(** A constant absorption, in closed form. *)
Theorem C155_constant : forall c maxi E, inside 0 maxi E ->
  let d := 1 / 100 in
  Epsi1 (fun _ => c) 0 maxi E = c / PI * (ln ((2 * E - d) * d) - ln (E ^ 2) + ln (maxi ^ 2 - E ^ 2) - ln ((2 * E + d) * d)).
Proof.
  intros c maxi E [H1 H2] d. rewrite Rmax_left in H1 by lra.
  assert (I1 : is_RInt (kk_integrand (fun _ => c) E) 0 (E - d) (minus (c / 2 * ln (E ^ 2 - (E - d) ^ 2)) (c / 2 * ln (E ^ 2 - 0 ^ 2)))).
  { apply (is_RInt_derive (fun w => c / 2 * ln (E ^ 2 - w ^ 2))).
    - intros w Hw. rewrite Rmin_left, Rmax_right in Hw by (unfold d; lra). unfold kk_integrand, d in *. auto_derive; [nra|]. field. nra.
    - intros w Hw. rewrite Rmin_left, Rmax_right in Hw by (unfold d; lra). unfold kk_integrand. apply (@ex_derive_continuous R_AbsRing R_NormedModule).
      unfold d in *. auto_derive. nra. }
  assert (I2 : is_RInt (kk_integrand (fun _ => c) E) (E + d) maxi (minus (c / 2 * ln (maxi ^ 2 - E ^ 2)) (c / 2 * ln ((E + d) ^ 2 - E ^ 2)))).
  { apply (is_RInt_derive (fun w => c / 2 * ln (w ^ 2 - E ^ 2))).
    - intros w Hw. rewrite Rmin_left, Rmax_right in Hw by (unfold d; lra). unfold kk_integrand, d in *. auto_derive; [nra|]. field. nra.
    - intros w Hw. rewrite Rmin_left, Rmax_right in Hw by (unfold d; lra). unfold kk_integrand. apply (@ex_derive_continuous R_AbsRing R_NormedModule).
      unfold d in *. auto_derive. nra. }
  apply (is_RInt_unique (V := R_CompleteNormedModule)) in I1. apply (is_RInt_unique (V := R_CompleteNormedModule)) in I2. unfold Epsi1. cbv zeta. fold d. rewrite (Rmax_left 0 0) by lra. rewrite I1, I2.
  change (@minus R_AbelianGroup) with Rminus.
  replace (E ^ 2 - (E - d) ^ 2) with ((2 * E - d) * d) by ring. replace ((E + d) ^ 2 - E ^ 2) with ((2 * E + d) * d) by ring.
  replace (E ^ 2 - 0 ^ 2) with (E ^ 2) by ring. assert (P := PI_RGT_0). field. lra.
Qed.
(** The Gauss oscillator: its real part is the Kramers-Kronig integral of its published imaginary part
    over 0 to 5 eV without a hundredth of an eV on both sides, an integral that exists; it is
    proportional to the amplitude. *)
Definition gauss_shape (Ec Br w : R) : R := exp (- 4 * ln 2 * ((w - Ec) / Br) ^ 2) - exp (- 4 * ln 2 * ((w + Ec) / Br) ^ 2).
Lemma gauss_e2_shape A Ec Br w : 0 < Br -> gauss_e2 A Ec Br w = A * gauss_shape Ec Br w.
Proof.
  intros HB. unfold gauss_e2, gauss_shape. assert (L := ln2_pos). assert (Q : 0 < sqrt (ln 2)) by now apply sqrt_lt_R0.
  assert (K : forall d, - (d / gauss_s Br) ^ 2 = - 4 * ln 2 * (d / Br) ^ 2).
  { intros d. unfold gauss_s. rewrite <- (sqrt_sqrt (ln 2)) at 2 by lra. field. split; lra. }
  cbv zeta. now rewrite !K.
Qed.
Lemma shape_continuous Ec Br w : continuous (gauss_shape Ec Br) w.
Proof. apply (@ex_derive_continuous R_AbsRing R_NormedModule). unfold gauss_shape. auto_derive. exact I. Qed.
Lemma Epsi1_ext (e2 f2 : R -> R) mini maxi E : (forall w, e2 w = f2 w) -> Epsi1 e2 mini maxi E = Epsi1 f2 mini maxi E.
Proof.
  intros H. unfold Epsi1. cbv zeta. f_equal. f_equal; apply RInt_ext; intros w _; unfold kk_integrand; now rewrite H.
Qed.
Theorem C155_gauss_partial : forall A Ec Br x, 0 < Br -> let E := 1240 / x in 1 / 100 <= E <= 499 / 100 ->
  exists k1 k2, is_RInt (fun w => w * gauss_shape Ec Br w / (w ^ 2 - E ^ 2)) 0 (E - 1 / 100) k1 /\
    is_RInt (fun w => w * gauss_shape Ec Br w / (w ^ 2 - E ^ 2)) (E + 1 / 100) 5 k2 /\
    dielectric (Gauss A Ec Br) x = Some (A * (2 / PI * (k1 + k2)), A * gauss_shape Ec Br E).
Proof.
  intros A Ec Br x HB E HE.
  assert (Hin : inside 0 5 E) by (unfold inside; rewrite Rmax_left by lra; lra).
  destruct (integrable_parts (gauss_shape Ec Br) 0 5 E Hin) as [I1 I2]; [intros w _; apply shape_continuous|]. rewrite Rmax_left in I1 by lra.
  exists (RInt (kk_integrand (gauss_shape Ec Br) E) 0 (E - 1 / 100)), (RInt (kk_integrand (gauss_shape Ec Br) E) (E + 1 / 100) 5).
  split; [now apply (RInt_correct (V := R_CompleteNormedModule))|]. split; [now apply (RInt_correct (V := R_CompleteNormedModule))|].
  cbn [dielectric]. fold E. f_equal. apply f_equal2; [|now apply gauss_e2_shape]. unfold epsi1.
  rewrite (Epsi1_ext _ (fun w => A * gauss_shape Ec Br w + 0 * gauss_shape Ec Br w)) by (intros w; rewrite gauss_e2_shape by exact HB; ring).
  rewrite (C155_linear (gauss_shape Ec Br) (gauss_shape Ec Br)); [|exact Hin|intros w _; split; apply shape_continuous].
  unfold Epsi1. cbv zeta. rewrite (Rmax_left 0 0) by lra. ring.
Qed.
(** Above 5 eV, that is below 248 nm, the second integral runs back across the energy itself and does not
    exist; the example at the end of the file goes down to 200 nm. *)
Lemma shape_pos Ec Br w : 0 < Br -> 0 < Ec -> 0 < w -> 0 < gauss_shape Ec Br w.
Proof.
  intros HB HE Hw. unfold gauss_shape. assert (L := ln2_pos).
  assert (K : exp (- 4 * ln 2 * ((w + Ec) / Br) ^ 2) < exp (- 4 * ln 2 * ((w - Ec) / Br) ^ 2)); [|lra]. apply exp_increasing.
  assert (P : 0 < / Br ^ 2) by (apply Rinv_0_lt_compat, pow_lt; lra).
  replace (((w + Ec) / Br) ^ 2) with ((w + Ec) ^ 2 * / Br ^ 2) by (field; lra). replace (((w - Ec) / Br) ^ 2) with ((w - Ec) ^ 2 * / Br ^ 2) by (field; lra).
  assert ((w - Ec) ^ 2 * / Br ^ 2 < (w + Ec) ^ 2 * / Br ^ 2) by (apply Rmult_lt_compat_r; [exact P|nra]). nra.
Qed.
Theorem C155_above_refuted : forall A Ec Br E, 0 < A -> 0 < Ec -> 0 < Br -> 5 < E ->
  ~ ex_RInt (kk_integrand (gauss_e2 A Ec Br) E) (E + 1 / 100) 5.
Proof.
  intros A Ec Br E HA HEc HB HE H. apply ex_RInt_ub in H. destruct H as [M HM]. rewrite Rmin_right, Rmax_left in HM by lra.
  assert (Hc : continuous (gauss_shape Ec Br) E) by apply shape_continuous.
  assert (P := shape_pos Ec Br E HB HEc ltac:(lra)). set (p := gauss_shape Ec Br E) in *.
  destruct (proj1 (filterlim_locally (gauss_shape Ec Br) p) Hc (mkposreal (p / 2) ltac:(lra))) as [del Hd].
  assert (M0 : 0 <= M).
  { eapply Rle_trans; [|apply (HM 5); lra]. apply (norm_ge_0 (V := R_NormedModule)). }
  set (h := Rmin (Rmin (del / 2) (1 / 100)) (A * p / (8 * (M + 1)))).
  assert (Hap : 0 < A * p) by now apply Rmult_lt_0_compat.
  assert (Hh : 0 < h).
  { unfold h. assert (0 < del) by apply cond_pos. repeat apply Rmin_glb_lt; try lra. apply Rdiv_lt_0_compat; lra. }
  assert (h1 : h <= del / 2) by (unfold h; eapply Rle_trans; [apply Rmin_l|apply Rmin_l]).
  assert (h2 : h <= 1 / 100) by (unfold h; eapply Rle_trans; [apply Rmin_l|apply Rmin_r]).
  assert (h3 : h <= A * p / (8 * (M + 1))) by apply Rmin_r.
  assert (B := HM (E + h) ltac:(lra)). change (Rabs (kk_integrand (gauss_e2 A Ec Br) E (E + h)) <= M) in B.
  assert (G : p / 2 < gauss_shape Ec Br (E + h)).
  { assert (Hb : ball E del (E + h)).
    { change (Rabs (minus (E + h) E) < del). change (Rabs (E + h - E) < del). assert (0 < del) by apply cond_pos. apply Rabs_def1; lra. }
    specialize (Hd (E + h) Hb). change (Rabs (gauss_shape Ec Br (E + h) - p) < p / 2) in Hd. apply Rabs_def2 in Hd. lra. }
  unfold kk_integrand in B. rewrite gauss_e2_shape in B by exact HB. set (g := gauss_shape Ec Br (E + h)) in *. clearbody g.
  apply Rle_trans with (1 := Rle_abs _) in B.
  assert (D : 0 < (E + h) ^ 2 - E ^ 2) by nra.
  assert (U : (E + h) * (A * g) <= M * ((E + h) ^ 2 - E ^ 2)).
  { apply (Rmult_le_compat_r _ _ _ (Rlt_le _ _ D)) in B. unfold Rdiv in B. rewrite Rmult_assoc, Rinv_l, Rmult_1_r in B by lra. exact B. }
  assert (V : h * (8 * (M + 1)) <= A * p).
  { apply (Rmult_le_compat_r (8 * (M + 1))) in h3; [|lra]. unfold Rdiv in h3. rewrite Rmult_assoc, Rinv_l, Rmult_1_r in h3 by lra. exact h3. }
  assert (W : A * (p / 2) < A * g) by (apply Rmult_lt_compat_l; assumption).
  assert (X : (E + h) ^ 2 - E ^ 2 = h * (2 * E + h)) by ring. rewrite X in U.
  assert (Y : M * (h * (2 * E + h)) <= (h * (M + 1)) * (2 * (E + h))) by nra.
  assert (Z : (E + h) * (A * (p / 2)) < (E + h) * (A * g)) by (apply Rmult_lt_compat_l; lra). nra.
Qed.
Example C155_above_example : exists x, 200 = x /\ ~ ex_RInt (kk_integrand (gauss_e2 (28468 / 10000) (1299 / 10000) (111 / 10000)) (1240 / x)) (1240 / x + 1 / 100) 5.
Proof. exists 200. split; [reflexivity|]. apply C155_above_refuted; lra. Qed.
(** The segments: the real part should be the integral of the segments, but the function given to the
    integral is constant. No absorption below 1 eV and some above raises the dielectric constant at
    1 eV (C155_sign); the model returns the value without any absorption. *)
Definition ramp : table1d := {| t_x := [0; 1; 2; 5]; t_y := [0; 0; 1; 1]; t_kind := Linear; t_bounds_error := false; t_fill := None |}.
Definition ramp_at (w : R) : R := call_linear [0; 1; 2; 5] [0; 0; 1; 1] w.
Lemma ramp_inc : increasing [0; 1; 2; 5].
Proof.
  intros i j H. cbn [length] in H. destruct i as [|[|[|[|]]]], j as [|[|[|[|]]]]; try lia; cbn; lra.
Qed.
Lemma ramp_values w : (0 <= w <= 1 -> ramp_at w = 0) /\ (1 <= w <= 2 -> ramp_at w = w - 1) /\ (2 <= w <= 5 -> ramp_at w = 1).
Proof.
  unfold ramp_at. repeat split; intros H.
  - rewrite (call_linear_cell _ _ w 0 ramp_inc) by (cbn; lia || lra). cbn [nth]. field.
  - rewrite (call_linear_cell _ _ w 1 ramp_inc) by (cbn; lia || lra). cbn [nth]. field.
  - rewrite (call_linear_cell _ _ w 2 ramp_inc) by (cbn; lia || lra). cbn [nth]. field.
Qed.
Lemma ramp_integral : exists v, Epsi1 ramp_at 0 5 1 = v /\ 0 < v.
Proof.
  assert (Z : is_RInt (kk_integrand ramp_at 1) 0 (1 - 1 / 100) (scal (1 - 1 / 100 - 0) 0)).
  { apply (is_RInt_ext (fun _ => 0)); [|apply (is_RInt_const (V := R_NormedModule))].
    intros w Hw. rewrite Rmin_left, Rmax_right in Hw by lra. unfold kk_integrand. rewrite (proj1 (ramp_values w)) by lra.
    change (@eq R 0 (w * 0 / (w ^ 2 - 1 ^ 2))). unfold Rdiv. ring. }
  assert (I1 : is_RInt (kk_integrand ramp_at 1) (1 + 1 / 100) 2 (minus (2 - ln (2 + 1)) (1 + 1 / 100 - ln (1 + 1 / 100 + 1)))).
  { apply (is_RInt_ext (fun w => w / (w + 1))).
    - intros w Hw. rewrite Rmin_left, Rmax_right in Hw by lra. unfold kk_integrand. rewrite (proj1 (proj2 (ramp_values w))) by lra.
      change (@eq R (w / (w + 1)) (w * (w - 1) / (w ^ 2 - 1 ^ 2))). field. split; nra.
    - apply (is_RInt_derive (fun w => w - ln (w + 1))).
      + intros w Hw. rewrite Rmin_left, Rmax_right in Hw by lra. auto_derive; [lra|]. field. lra.
      + intros w Hw. rewrite Rmin_left, Rmax_right in Hw by lra. apply (@ex_derive_continuous R_AbsRing R_NormedModule). auto_derive. lra. }
  assert (I2 : is_RInt (kk_integrand ramp_at 1) 2 5 (minus (1 / 2 * ln (5 ^ 2 - 1 ^ 2)) (1 / 2 * ln (2 ^ 2 - 1 ^ 2)))).
  { apply (is_RInt_ext (fun w => w / (w ^ 2 - 1 ^ 2))).
    - intros w Hw. rewrite Rmin_left, Rmax_right in Hw by lra. unfold kk_integrand. rewrite (proj2 (proj2 (ramp_values w))) by lra.
      change (@eq R (w / (w ^ 2 - 1 ^ 2)) (w * 1 / (w ^ 2 - 1 ^ 2))). unfold Rdiv. ring.
    - apply (is_RInt_derive (fun w => 1 / 2 * ln (w ^ 2 - 1 ^ 2))).
      + intros w Hw. rewrite Rmin_left, Rmax_right in Hw by lra. auto_derive; [nra|]. field. nra.
      + intros w Hw. rewrite Rmin_left, Rmax_right in Hw by lra. apply (@ex_derive_continuous R_AbsRing R_NormedModule). auto_derive. nra. }
  assert (I := is_RInt_Chasles (V := R_NormedModule) _ _ _ _ _ _ I1 I2).
  apply (is_RInt_unique (V := R_CompleteNormedModule)) in Z. apply (is_RInt_unique (V := R_CompleteNormedModule)) in I.
  eexists. split; [reflexivity|]. unfold Epsi1. cbv zeta. rewrite (Rmax_left 0 0) by lra. rewrite Z, I.
  change (0 < ((1 - 1 / 100 - 0) * 0 + ((2 - ln (2 + 1) - (1 + 1 / 100 - ln (1 + 1 / 100 + 1))) + (1 / 2 * ln (5 ^ 2 - 1 ^ 2) - 1 / 2 * ln (2 ^ 2 - 1 ^ 2)))) * (2 / PI)).
  assert (P : 0 < 2 / PI) by (apply Rdiv_lt_0_compat; [lra|apply PI_RGT_0]). apply Rmult_lt_0_compat; [|exact P].
  assert (L1 : ln (2 ^ 2 - 1 ^ 2) < ln (5 ^ 2 - 1 ^ 2)) by (apply ln_increasing; lra).
  assert (L2 : ln (2 + 1) < ln (1 + 1 / 100 + 1) + 1 / 2).
  { replace (2 + 1) with ((1 + 1 / 100 + 1) * (300 / 201)) by lra. rewrite ln_mult by lra. apply Rplus_lt_compat_l.
    rewrite <- (ln_exp (1 / 2)). apply ln_increasing; [lra|]. assert (Q := exp_ineq1 (1 / 2) ltac:(lra)). lra. }
  lra.
Qed.
Theorem C155_segments_refuted :
  (forall w, 0 <= w <= 5 -> call ramp [w] = Ok [Some (ramp_at w)]) /\
  dielectric (PolySegment ramp) 1240 = Some (RtoC 0) /\ 0 < Epsi1 ramp_at 0 5 (1240 / 1240).
Proof.
  assert (C : forall w, 0 <= w <= 5 -> call ramp [w] = Ok [Some (ramp_at w)]).
  { intros w Hw. unfold call, ramp, below, above. cbn [t_bounds_error andb map t_x t_y t_kind t_fill length Nat.sub nth].
    destruct (Rlt_dec w 0); [lra|]. destruct (Rlt_dec 5 w); [lra|]. reflexivity. }
  split; [exact C|]. split.
  - cbn [dielectric]. replace (1240 / 1240) with 1 by lra. rewrite C by lra. rewrite (proj1 (ramp_values 1)) by lra. f_equal. apply f_equal2; [|reflexivity].
    unfold epsi1. rewrite C155_constant by (unfold inside; rewrite Rmax_left; lra). unfold Rdiv. ring.
  - replace (1240 / 1240) with 1 by lra. destruct ramp_integral as (v & -> & H). exact H.
Qed.
(** Absorption above 2 eV: the integral at 1 eV is the logarithm of C155_constant or, at least, not
    negative. *)
Example C155_example : Epsi1 (fun _ => 1) 0 5 1 = 1 / PI * (ln ((2 * 1 - 1 / 100) * (1 / 100)) - ln (1 ^ 2) + ln (5 ^ 2 - 1 ^ 2) - ln ((2 * 1 + 1 / 100) * (1 / 100))) /\
  0 <= Epsi1 (fun w => Rmax 0 (w - 2)) 0 5 1.
Proof.
  split; [apply C155_constant; unfold inside; rewrite Rmax_left; lra|].
  apply C155_sign.
  - unfold inside. rewrite Rmax_left; lra.
  - intros w Hw. split; [|apply Rmax_l]. apply continuity_pt_filterlim.
    apply (continuity_pt_ext (fun w => (Rabs (w - 2) + (w - 2)) / 2)).
    + intros t. unfold Rmax. destruct (Rle_dec 0 (t - 2)); [rewrite Rabs_right by lra|rewrite Rabs_left by lra]; lra.
    + apply continuity_pt_filterlim. apply (continuous_mult (fun w => Rabs (w - 2) + (w - 2)) (fun _ => / 2)); [|apply continuous_const].
      apply (continuous_plus (fun w => Rabs (w - 2)) (fun w => w - 2)).
      * apply (continuous_comp (fun w => w - 2) Rabs); [|apply continuous_Rabs]. apply (@ex_derive_continuous R_AbsRing R_NormedModule). auto_derive. exact I.
      * apply (@ex_derive_continuous R_AbsRing R_NormedModule). auto_derive. exact I.
  - intros w Hw. rewrite Rmax_left; lra.
Qed.

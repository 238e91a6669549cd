(** Properties C107 (currents at the requested voltages), C108 (voltage limits) and the
    counterexample for C65 of the drift-diffusion driver. *)
From Coq Require Import Reals String List Bool ZArith Arith Lra Lia Psatz.
From Verif Require Import Common InterpModel InterpProps NpModel PhysConst PddModel PddProps PddProps2.
From Coq Require Import List.
Import ListNotations.
Open Scope R_scope.
Open Scope string_scope.
Open Scope list_scope.

(** * C108: the voltage limits *)

(** Property C108, what holds: the limits never widen the requested range, and the
    forward bias stays within the band gap plus three thermal voltages, on the side that
    the polarity makes the forward one; the other side is untouched. *)
Theorem C108_limits_partial gap vmax vmin pn T :
  let r := find_voltage_limits gap vmax vmin pn T in
  fst r <= vmax /\ vmin <= snd r /\
  (pn = true -> fst r <= gap + 3 * (kb * T / q) /\ snd r = vmin /\ (vmax <= gap + 3 * (kb * T / q) -> fst r = vmax)) /\
  (pn = false -> - (gap + 3 * (kb * T / q)) <= snd r /\ fst r = vmax /\ (- (gap + 3 * (kb * T / q)) <= vmin -> snd r = vmin)).
Proof.
  cbv zeta. pose proof q_pos. unfold find_voltage_limits.
  assert (E : 3 * kb * T / q = 3 * (kb * T / q)) by (field; lra). rewrite E. set (vt := kb * T / q). clearbody vt.
  destruct pn; cbn [fst snd].
  - pose proof (Rmin_l (gap + 3 * vt) vmax). pose proof (Rmin_r (gap + 3 * vt) vmax).
    split; [lra|]. split; [lra|]. split; [|discriminate]. intros _. repeat split; try lra. intros. now apply Rmin_right.
  - pose proof (Rmax_l (- gap - 3 * vt) vmin). pose proof (Rmax_r (- gap - 3 * vt) vmin).
    split; [lra|]. split; [lra|]. split; [discriminate|]. intros _. repeat split; try lra. intros. apply Rmax_right. lra.
Qed.
Example C108_case : find_voltage_limits 1 (1 / 2) (-2) true 300 = (1 / 2, -2).
Proof.
  unfold find_voltage_limits. f_equal. apply Rmin_right. pose proof kb_pos. pose proof q_pos.
  assert (0 < 3 * kb * 300 / q) by (apply Rdiv_lt_0_compat; lra). lra.
Qed.
(** What does not: the solver is driven beyond the band gap, at every temperature above
    absolute zero. *)
Theorem C108_beyond_gap_refuted T : 0 < T -> exists gap vmax vmin pn,
  0 < gap /\ gap < fst (find_voltage_limits gap vmax vmin pn T).
Proof.
  intros HT. exists 1, 10, 0, true. split; [lra|]. unfold find_voltage_limits. cbn [fst]. pose proof kb_pos. pose proof q_pos.
  assert (0 < 3 * kb * T / q) by (apply Rdiv_lt_0_compat; nra). unfold Rmin. destruct (Rle_dec _ _); lra.
Qed.

(** * Runs of the solver *)

Lemma fortran_quiet_regions cs c : (forall a, c <> CAddLayer a) -> c <> CReset ->
  f_regions (fortran_after (cs ++ [c])) = f_regions (fortran_after cs).
Proof.
  intros H1 H2. rewrite fortran_after_app. cbn [fold_left]. destruct c; try reflexivity; [contradiction|now elim (H1 args)].
Qed.

(** After the preparation of a run, dark or light, the regions are the layers. *)
Lemma prepared dflt J (light : bool) o cs cs' u :
  (if light then short_circuit_pdd dflt J o else equilibrium_pdd dflt J o) cs = (cs', Ok u) ->
  Forall2 (region_of dflt) (j_layers J) (f_regions (fortran_after cs')).
Proof.
  destruct light.
  - unfold short_circuit_pdd. destruct (clash _ _); [intros [= _ E]; discriminate E|].
    destruct (lookup "wavelength" o); [|intros [= _ E]; discriminate E].
    destruct (lookup "light_source" o); [|intros [= _ E]; discriminate E]. cbv zeta. intros H.
    apply bind_inv in H as (u1 & c1 & H1 & H). destruct u1. apply C110_layers in H1 as [H1 _].
    apply bind_inv in H as (u2 & c2 & H2 & H). apply emit_inv in H2 as ->.
    apply bind_inv in H as (u3 & c3 & H2 & H). apply emit_inv in H2 as ->.
    apply bind_inv in H as (u4 & c4 & H2 & H). apply emit_inv in H2 as ->. apply emit_inv in H as ->.
    rewrite !fortran_quiet_regions by (intros; discriminate). exact H1.
  - intros H. destruct u. now apply C110_layers in H as [H _].
Qed.

Definition polarity (na nd : R) : R := if Rlt_dec na nd then -1 else 1.

Lemma front_np_regions dflt J cs l0 rest na nd : j_layers J = l0 :: rest ->
  Forall2 (region_of dflt) (j_layers J) (f_regions (fortran_after cs)) ->
  l_attr l0 "Na" = Ok na -> l_attr l0 "Nd" = Ok nd -> front_np cs = (na, nd).
Proof.
  intros E F Ha Hd. rewrite E in F. inversion F as [|? a ? ? R _ E1 E2]. unfold front_np. rewrite <- E2.
  destruct R as (gap & chi & mun & mup & nc & nv & tn & tp & eps & brad & ccn & ccp & na' & nd' & R).
  do 14 (let X := fresh "X" in destruct R as [X R]). subst a. cbn [nth].
  assert (na' = na) as -> by (match goal with H : layer_value dflt l0 "Na" na' |- _ => destruct H as [H|[H _]]; congruence end).
  assert (nd' = nd) as -> by (match goal with H : layer_value dflt l0 "Nd" nd' |- _ => destruct H as [H|[H _]]; congruence end).
  reflexivity.
Qed.

Lemma scale_twice s l : s * s = 1 -> scale_by s (scale_by s l) = l.
Proof. intros H. unfold scale_by. rewrite map_map. rewrite <- (map_id l) at 2. apply map_ext. intros a. rewrite <- Rmult_assoc, H. ring. Qed.

(** The rows of a run: the current of kind [k] at its i-th voltage. *)
Definition rows_of (slv : solver) (cs : list call) (sgn : R) (k : string) (n : nat) : list R :=
  map (fun i => sgn * slv cs i k) (seq 0 n).
Lemma rows_length slv cs sgn k n : length (rows_of slv cs sgn k n) = n.
Proof. unfold rows_of. now rewrite map_length, seq_length. Qed.
Lemma rows_at slv cs sgn k n i : (i < n)%nat -> at_ (rows_of slv cs sgn k n) i = sgn * slv cs i k.
Proof.
  intros H. unfold rows_of. rewrite nth_indep with (d' := sgn * slv cs 0%nat k) by (rewrite map_length, seq_length; lia).
  rewrite (map_nth (fun i => sgn * slv cs i k) (seq 0 n) 0%nat i). rewrite seq_nth by lia. reflexivity.
Qed.

(** A run: the calls made, ending with RunIV; its voltages; its currents. *)
Lemma calculate_inv dflt slv J vl vs light level o cs cs' d l0 rest na nd :
  vl <> 0 -> vs <> 0 -> j_layers J = l0 :: rest -> l_attr l0 "Na" = Ok na -> l_attr l0 "Nd" = Ok nd ->
  calculate_iv dflt slv J vl vs light level o cs = (cs', Ok d) ->
  let s := vl / Rabs vl * Rabs vs in
  exists n, (exists pre, cs' = pre ++ [CRunIV vl s level]) /\
    lookup "V" d = Some (ramp s (S n)) /\
    (forall k, In k currents -> lookup k d = Some (rows_of slv cs' (polarity na nd) k (S n))) /\
    INR n * Rabs s <= Rabs vl + Rabs s / 10 < INR (S n) * Rabs s /\ map fst d = "V" :: currents.
Proof.
  intros Hvl Hvs E0 Ha Hd H s. unfold calculate_iv in H. destruct (clash _ _); [injection H as _ E; discriminate E|].
  cbv zeta in H. fold s in H. apply bind_inv in H as (u & c1 & H1 & H).
  assert (F : Forall2 (region_of dflt) (j_layers J) (f_regions (fortran_after c1))).
  { apply (prepared dflt J (truthy light) o cs c1 u). destruct (truthy light); exact H1. }
  apply bind_inv in H as (u2 & c2 & H2 & H). apply emit_inv in H2 as ->.
  apply bind_inv in H as (c3 & c4 & H2 & H). unfold calls in H2. injection H2 as <- <-.
  assert (Hs0 : s <> 0).
  { unfold s. assert (Rabs vl <> 0) by now apply Rabs_no_R0. assert (Rabs vs <> 0) by now apply Rabs_no_R0.
    unfold Rdiv. repeat apply Rmult_integral_contrapositive_currified; try assumption. now apply Rinv_neq_0_compat. }
  assert (Hs : 0 < vl * s).
  { unfold s. assert (0 < Rabs vl) by now apply Rabs_pos_lt. assert (0 < Rabs vs) by now apply Rabs_pos_lt.
    replace (vl * (vl / Rabs vl * Rabs vs)) with ((vl * vl) * / Rabs vl * Rabs vs) by (unfold Rdiv; ring).
    apply Rmult_lt_0_compat; [|assumption]. apply Rmult_lt_0_compat; [|now apply Rinv_0_lt_compat].
    destruct (Rdichotomy vl 0 Hvl); nra. }
  destruct (C106_solver_voltages vl s Hs0 Hs) as (n & En & N1 & N2). rewrite En in H. injection H as <- <-. exists n.
  assert (Fr : front_np (c1 ++ [CRunIV vl s level]) = (na, nd)).
  { apply (front_np_regions dflt J _ l0 rest); try assumption. rewrite fortran_quiet_regions by (intros; discriminate). exact F. }
  split; [eexists; reflexivity|]. unfold dump_iv. rewrite Fr. cbn [fst snd]. fold (polarity na nd).
  assert (P1 : polarity na nd * polarity na nd = 1) by (unfold polarity; destruct (Rlt_dec _ _); ring).
  split; [unfold lookup; cbn [find fst snd String.eqb Ascii.eqb Bool.eqb]; now rewrite (scale_twice _ _ P1)|]. split; [|split].
  - intros k Hk. rewrite ramp_length. unfold scale_by, rows_of, currents in *.
    simpl in Hk. destruct Hk as [<-|[<-|[<-|[<-|[<-|[]]]]]]; unfold lookup; cbn [map find fst snd String.eqb Ascii.eqb Bool.eqb];
      rewrite map_map; reflexivity.
  - specialize (N1 n ltac:(lia)). rewrite Rabs_mult, (Rabs_right (INR n)) in N1 by (apply Rle_ge, pos_INR).
    rewrite Rabs_mult, (Rabs_right (INR (S n))) in N2 by (apply Rle_ge, pos_INR). lra.
  - reflexivity.
Qed.

(** * The joined table *)

Lemma join_at (m n : nat) s : forall i, (i < m + S n)%nat ->
  at_ (rev (tl (ramp (- s) (S m))) ++ ramp s (S n)) i = (INR i - INR m) * s.
Proof.
  intros i Hi. rewrite joined_at by (rewrite !ramp_length; lia). rewrite ramp_length.
  replace (S m - 1)%nat with m by lia. destruct (Nat.ltb_spec i m).
  - rewrite ramp_at by lia. rewrite minus_INR by lia. ring.
  - rewrite ramp_at by lia. rewrite minus_INR by lia. ring.
Qed.
Lemma join_increasing m n s : 0 < s -> increasing (rev (tl (ramp (- s) (S m))) ++ ramp s (S n)).
Proof.
  intros Hs i j Hij. rewrite app_length, rev_tl_length, !ramp_length in Hij. rewrite !join_at by lia.
  apply Rmult_lt_compat_r; [assumption|]. assert (INR i < INR j) by (apply lt_INR; lia). lra.
Qed.
Lemma join_interp m n s (gn gp : nat -> R) (tj : list R) z : 0 < s ->
  (forall i, (i < m)%nat -> at_ tj i = gn (m - i)%nat) -> (forall i, (m <= i < m + S n)%nat -> at_ tj i = gp (i - m)%nat) ->
  (- Z.of_nat m <= z <= Z.of_nat n)%Z ->
  np_interp (rev (tl (ramp (- s) (S m))) ++ ramp s (S n)) tj (IZR z * s) = (if Z.ltb z 0 then gn else gp) (Z.abs_nat z).
Proof.
  intros Hs Hn Hp Hz. set (i := Z.to_nat (Z.of_nat m + z)).
  assert (Hi : (i < m + S n)%nat) by (unfold i; lia).
  assert (E : IZR z * s = at_ (rev (tl (ramp (- s) (S m))) ++ ramp s (S n)) i).
  { rewrite join_at by assumption. f_equal. unfold i. rewrite INR_IZR_INZ, Z2Nat.id by lia. rewrite plus_IZR, <- INR_IZR_INZ. ring. }
  rewrite E, np_interp_node.
  - destruct (Z.ltb_spec z 0).
    + rewrite Hn by (unfold i; lia). f_equal. unfold i. lia.
    + rewrite Hp by (unfold i; lia). f_equal. unfold i. lia.
  - now apply join_increasing.
  - rewrite app_length, rev_tl_length, !ramp_length. lia.
Qed.

Lemma lookup_tagged {A} (f : string -> A) k ks : In k ks -> lookup k (map (fun x => (x, f x)) ks) = Some (f k).
Proof.
  unfold lookup. induction ks as [|x ks IH]; [intros []|]. intros H. cbn [map find fst].
  destruct (String.eqb_spec x k) as [->|N]; [reflexivity|]. destruct H as [H|H]; [now elim N|]. exact (IH H).
Qed.
Lemma pair_ok {A B} (a a' : A) (b b' : B) : (a, Ok b) = (a', Ok b') -> a' = a /\ b = b'.
Proof. intros H. inversion H. split; reflexivity. Qed.

(** * C107: the currents at the requested voltages *)

Definition shunt_of (J : junction) : R := match j_shunt J with Some r => Rmin r (10 ^ 14) | None => 10 ^ 14 end.

(** Property C107, on grids of equal steps.  The requested voltages are multiples of a
    step s, one of them is positive, and the first two differ by one step.  Then every
    requested voltage z s that the limits allow gets exactly the current the solver
    found at the |z|-th point of the run in that direction, which is the bias z s, with
    the sign of the polarity, plus the current of the shunt; the recombination currents
    likewise, without the shunt.  The stored voltages are the requested ones. *)
Theorem C107_currents_partial dflt slv J o cs cs' d vs s T l0 rest na nd gap :
  iv_pdd dflt slv J o cs = (cs', Ok d) ->
  lookup "internal_voltages" o = Some (Vec vs) -> lookup "T" o = Some (Num T) ->
  j_layers J = l0 :: rest -> l_attr l0 "Na" = Ok na -> l_attr l0 "Nd" = Ok nd -> find_minimum_bandgap J = Ok gap ->
  0 < s -> 0 < gap + 3 * (kb * T / q) -> Rabs (at_ vs 1 - at_ vs 0) = s ->
  (exists v, In v vs /\ 0 < v) -> (forall v, In v vs -> exists z, v = IZR z * s) ->
  exists csp csn vp vn level,
    (exists pre, csp = pre ++ [CRunIV vp s level]) /\
    ((exists v, In v vs /\ v < 0) -> exists pre, csn = pre ++ [CRunIV vn (- s) level]) /\
    iv_voltage d = vs /\
    forall i z, (i < length vs)%nat -> at_ vs i = IZR z * s ->
      (nd <= na -> IZR z * s <= gap + 3 * (kb * T / q)) -> (na < nd -> - (gap + 3 * (kb * T / q)) <= IZR z * s) ->
      let src := if Z.ltb z 0 then csn else csp in
      at_ (iv_current d) i = polarity na nd * slv src (Z.abs_nat z) "J" + IZR z * s / shunt_of J /\
      forall k, In k ["Jrad"; "Jsrh"; "Jaug"; "Jsur"] ->
        exists l, lookup k (iv_recombination d) = Some l /\ at_ l i = polarity na nd * slv src (Z.abs_nat z) k.
Proof.
  intros H Hv HT El Ha Hd Hg Hs Hgt Hstep (v0 & Hv0 & Hpos) Hz.
  unfold iv_pdd in H. destruct (clash _ _); [injection H as _ E; discriminate E|]. rewrite Hv in H.
  apply bind_inv in H as (given & c1 & H1 & H). apply lift_ok in H1 as [H1 ->]. injection H1 as <-.
  apply bind_inv in H as (T' & c1 & H1 & H). apply lift_ok in H1 as [H1 ->]. rewrite HT in H1. injection H1 as <-.
  cbv zeta in H. apply bind_inv in H as (top & c1 & H1 & H). apply lift_ok in H1 as [H1 ->]. apply np_max_spec in H1 as [Ht1 Ht2].
  assert (0 < top) by (specialize (Ht2 v0 Hv0); lra). destruct (Rle_dec top 0) as [|_]; [lra|].
  apply bind_inv in H as (gap' & c1 & H1 & H). apply lift_ok in H1 as [H1 ->]. rewrite Hg in H1. injection H1 as <-.
  apply bind_inv in H as (first & c1 & H1 & H). apply lift_ok in H1 as [H1 ->]. rewrite El in H1. injection H1 as <-.
  apply bind_inv in H as (na' & c1 & H1 & H). apply lift_ok in H1 as [H1 ->]. rewrite Ha in H1. injection H1 as <-.
  apply bind_inv in H as (nd' & c1 & H1 & H). apply lift_ok in H1 as [H1 ->]. rewrite Hd in H1. injection H1 as <-.
  apply bind_inv in H as (hi & c1 & H1 & H). apply lift_ok in H1 as [H1 ->]. apply np_max_spec in H1 as [Hh1 Hh2].
  apply bind_inv in H as (lo & c1 & H1 & H). apply lift_ok in H1 as [H1 ->]. apply np_min_spec in H1 as [Hl1 Hl2].
  apply bind_inv in H as (vstep & c1 & H1 & H). apply lift_ok in H1 as [H1 ->].
  assert (Hvs : Rabs vstep = s).
  { destruct vs as [|a [|b vs]]; try discriminate H1. injection H1 as <-. cbn [nth] in Hstep. exact Hstep. }
  assert (Hvs0 : vstep <> 0) by (intros ->; rewrite Rabs_R0 in Hvs; lra).
  set (pn := if Rle_dec nd na then true else false) in *.
  assert (P1 : nd <= na -> pn = true) by (intros; unfold pn; destruct (Rle_dec nd na); [reflexivity|lra]).
  assert (P2 : na < nd -> pn = false) by (intros; unfold pn; destruct (Rle_dec nd na); [lra|reflexivity]).
  clearbody pn.
  destruct (C108_limits_partial gap hi lo pn T) as (L1 & L2 & L3 & L4).
  set (lim := find_voltage_limits gap hi lo pn T) in *.
  assert (Hhp : 0 < hi) by (specialize (Hh2 v0 Hv0); lra).
  assert (E3 : 3 * kb * T / q = 3 * (kb * T / q)) by (pose proof q_pos; field; lra).
  assert (Hfst : 0 < fst lim).
  { destruct (Rle_lt_dec nd na) as [Hn|Hn].
    - unfold lim, find_voltage_limits. rewrite (P1 Hn), E3. cbn [fst]. unfold Rmin. destruct (Rle_dec _ _); lra.
    - destruct (L4 (P2 Hn)) as (_ & -> & _). lra. }
  destruct (Rlt_dec 0 (fst lim)) as [_|]; [|lra].
  apply bind_inv in H as (pos & cp & Hp & H).
  set (light := default (Flag false) (lookup "light_iv" o)) in *. set (level := default (Num 1) (lookup "output_iv" o)) in *.
  set (o' := without "output_iv" (without "light_iv" (without "T" (without "internal_voltages" o)))) in *.
  apply (calculate_inv dflt slv J (fst lim) vstep light level o' cs cp pos l0 rest na nd) in Hp; try assumption; [|lra].
  cbv zeta in Hp. assert (Sp : fst lim / Rabs (fst lim) * Rabs vstep = s).
  { rewrite Hvs, Rabs_right by lra. field. lra. }
  rewrite Sp in Hp. destruct Hp as (n & Pre & PV & PJ & PN & PK). rewrite (Rabs_right s), (Rabs_right (fst lim)) in PN by lra.
  apply bind_inv in H as (neg & cn & Hn & H).
  (* The table, with m points of the negative branch. *)
  assert (X : exists m csn, (snd lim < 0 -> exists pre, csn = pre ++ [CRunIV (snd lim) (- s) level]) /\
     (snd lim < 0 -> INR m * s <= - snd lim + s / 10 < INR (S m) * s) /\ (0 <= snd lim -> m = 0%nat) /\
     exists total, consolidate_iv pos neg = Ok total /\ lookup "V" total = Some (rev (tl (ramp (- s) (S m))) ++ ramp s (S n)) /\
       forall k, In k currents -> lookup k total = Some (rev (tl (rows_of slv csn (polarity na nd) k (S m))) ++ rows_of slv cp (polarity na nd) k (S n))).
  { destruct (Rlt_dec (snd lim) 0) as [Hneg|Hneg].
    - apply (calculate_inv dflt slv J (snd lim) vstep light level o' cp cn neg l0 rest na nd) in Hn; try assumption; [|lra].
      cbv zeta in Hn. assert (Sn : snd lim / Rabs (snd lim) * Rabs vstep = - s).
      { rewrite Hvs, Rabs_left by lra. field. lra. }
      rewrite Sn in Hn. destruct Hn as (m & Pre' & NV & NJ & NN & NK).
      rewrite (Rabs_left (- s)), (Rabs_left (snd lim)) in NN by lra.
      exists m, cn. split; [intros _; exact Pre'|]. split; [intros _; rewrite Ropp_involutive in NN; exact NN|]. split; [lra|].
      assert (J0 : exists total, join_keys pos neg = Ok total).
      { assert (Sub : forall k, In k (map fst neg) -> exists l, lookup k pos = Some l).
        { intros k Hk. rewrite NK in Hk. destruct Hk as [<-|Hk]; [eexists; exact PV|eexists; apply (PJ k Hk)]. }
        clear - Sub. induction neg as [|[k l] neg IH]; [eexists; reflexivity|]. cbn [join_keys].
        destruct (Sub k ltac:(now left)) as [p Ep]. rewrite Ep. destruct IH as [t Et]; [intros k' H; apply Sub; now right|].
        rewrite Et. cbn [bindR]. eexists; reflexivity. }
      destruct J0 as [total J0]. exists total. destruct (join_keys_spec pos neg total J0) as [K1 K2]. split; [|split].
      + unfold consolidate_iv. destruct pos; [discriminate PV|]. destruct neg; [discriminate NV|]. exact J0.
      + specialize (K2 "V"). destruct (lookup "V" total) as [l|].
        * destruct K2 as (p & nn & E1 & E2 & ->). rewrite PV in E1. rewrite NV in E2. injection E1 as <-. injection E2 as <-. reflexivity.
        * rewrite NV in K2. discriminate.
      + intros k Hk. specialize (K2 k). destruct (lookup k total) as [l|].
        * destruct K2 as (p & nn & E1 & E2 & ->). rewrite (PJ k Hk) in E1. rewrite (NJ k Hk) in E2. injection E1 as <-. injection E2 as <-. reflexivity.
        * rewrite (NJ k Hk) in K2. discriminate.
    - unfold ret in Hn. injection Hn as <- <-. exists 0%nat, []. split; [lra|]. split; [lra|]. split; [reflexivity|]. exists pos.
      split; [unfold consolidate_iv; destruct pos; reflexivity|]. split; [exact PV|]. intros k Hk. exact (PJ k Hk). }
  clear Hn. destruct X as (m & csn & XP & XN & X0 & total & Etot & EV & EJ).
  apply bind_inv in H as (total' & c1 & H2 & H). apply lift_ok in H2 as [H2 ->]. rewrite Etot in H2. injection H2 as <-.
  apply bind_inv in H as (tv & c1 & H2 & H). apply lift_ok in H2 as [H2 ->]. rewrite EV in H2.
  assert (tv = rev (tl (ramp (- s) (S m))) ++ ramp s (S n)) as -> by congruence. clear H2.
  apply bind_inv in H as (tj & c1 & H2 & H). apply lift_ok in H2 as [H2 ->]. rewrite (EJ "J" ltac:(now left)) in H2.
  assert (tj = rev (tl (rows_of slv csn (polarity na nd) "J" (S m))) ++ rows_of slv cp (polarity na nd) "J" (S n)) as -> by congruence. clear H2.
  unfold ret in H. apply pair_ok in H as [-> <-]. exists cp, csn, (fst lim), (snd lim), level. split; [exact Pre|]. split.
  { intros (vneg & Hin & Hlt). apply XP. specialize (Hl2 vneg Hin).
    destruct (Rle_lt_dec nd na) as [Hn|Hn].
    - destruct (L3 (P1 Hn)) as (_ & -> & _). lra.
    - unfold lim, find_voltage_limits. rewrite (P2 Hn), E3. cbn [snd]. apply Rmax_lub_lt; lra. }
  split; [reflexivity|]. intros i z Hi Ei Hpn Hnp. cbv zeta.
  assert (Hin : In (IZR z * s) vs) by (rewrite <- Ei; apply nth_In; assumption).
  assert (Hup : (z <= Z.of_nat n)%Z).
  { assert (IZR z * s <= fst lim).
    { destruct (Rle_lt_dec nd na) as [Hn|Hn].
      - unfold lim, find_voltage_limits. rewrite (P1 Hn), E3. cbn [fst]. apply Rmin_glb; [exact (Hpn Hn)|apply Hh2, Hin].
      - destruct (L4 (P2 Hn)) as (_ & -> & _). apply Hh2, Hin. }
    assert (Hzn : IZR z < INR (S n)) by nra. rewrite INR_IZR_INZ in Hzn. apply lt_IZR in Hzn. lia. }
  assert (Hlow : (- Z.of_nat m <= z)%Z).
  { destruct (Z.lt_ge_cases z 0) as [Hz0|Hz0]; [|lia].
    assert (IZR z < 0) by (apply IZR_lt in Hz0; lra).
    assert (Hzs : IZR z * s < 0) by nra.
    assert (snd lim <= IZR z * s).
    { destruct (Rle_lt_dec nd na) as [Hn|Hn].
      - destruct (L3 (P1 Hn)) as (_ & -> & _). apply Hl2, Hin.
      - unfold lim, find_voltage_limits. rewrite (P2 Hn), E3. cbn [snd]. specialize (Hnp Hn). apply Rmax_lub; [lra|apply Hl2, Hin]. }
    specialize (XN ltac:(lra)). assert (Hzm : - IZR z < INR (S m)) by nra. rewrite <- opp_IZR, INR_IZR_INZ in Hzm. apply lt_IZR in Hzm. lia. }
  assert (Key : forall k, In k currents ->
    np_interp (rev (tl (ramp (- s) (S m))) ++ ramp s (S n)) (rev (tl (rows_of slv csn (polarity na nd) k (S m))) ++ rows_of slv cp (polarity na nd) k (S n)) (IZR z * s)
    = polarity na nd * slv (if Z.ltb z 0 then csn else cp) (Z.abs_nat z) k).
  { intros k Hk. rewrite (join_interp m n s (fun j => polarity na nd * slv csn j k) (fun j => polarity na nd * slv cp j k)); try assumption.
    - destruct (Z.ltb z 0); reflexivity.
    - intros j Hj. rewrite joined_at by (rewrite !rows_length; lia). rewrite rows_length. replace (S m - 1)%nat with m by lia.
      replace (j <? m)%nat with true by (symmetry; apply Nat.ltb_lt; lia). now rewrite rows_at by lia.
    - intros j Hj. rewrite joined_at by (rewrite !rows_length; lia). rewrite rows_length. replace (S m - 1)%nat with m by lia.
      replace (j <? m)%nat with false by (symmetry; apply Nat.ltb_ge; lia). now rewrite rows_at by lia.
    - lia. }
  cbn [iv_current iv_recombination].
  assert (MapAt : forall f : R -> R, at_ (map f vs) i = f (IZR z * s)).
  { intros f. rewrite nth_indep with (d' := f 0) by (rewrite map_length; assumption). rewrite (map_nth f vs 0 i). now rewrite Ei. }
  split.
  - rewrite (MapAt (fun v => np_interp _ _ v + v / _)). rewrite Key by (now left). reflexivity.
  - intros k Hk. assert (Hk' : In k currents) by (right; exact Hk).
    rewrite (lookup_tagged _ k _ Hk). eexists. split; [reflexivity|].
    rewrite (EJ k Hk'). rewrite (MapAt (np_interp _ _)). now apply Key.
Qed.

(** * Concrete runs *)

(** A p-on-n junction with a gap of 2 V. *)
Definition solid (w na nd : R) : layer :=
  Layer w (fun k => if String.eqb k "band_gap" then Ok (2 * q) else if String.eqb k "Na" then Ok na else if String.eqb k "Nd" then Ok nd else Ok 1).
Definition cell : junction := Junction [solid 1 3 0; solid 1 0 3] None None None.
Definition run_options (T : R) (vs : list R) : kwargs := ("internal_voltages", Vec vs) :: ("T", Num T) :: pdd_options.
(** The options as calculate_iv receives them. *)
Definition inner_options : kwargs := without "output_iv" (without "light_iv" (without "T" (without "internal_voltages" pdd_options))).
Lemma inner_options_eq T vs :
  without "output_iv" (without "light_iv" (without "T" (without "internal_voltages" (run_options T vs)))) = inner_options.
Proof. unfold inner_options. do 3 f_equal. Qed.
Lemma cell_equilibrium cs : exists cs', equilibrium_pdd (fun _ => 7) cell inner_options cs = (cs', Ok tt).
Proof.
  exists (fst (equilibrium_pdd (fun _ => 7) cell inner_options cs)).
  assert (H : snd (equilibrium_pdd (fun _ => 7) cell inner_options cs) = Ok tt) by (vm_compute; reflexivity).
  destruct (equilibrium_pdd (fun _ => 7) cell inner_options cs) as [a b]. cbn [fst snd] in *. now rewrite H.
Qed.
Lemma cell_gap : find_minimum_bandgap cell = Ok 2.
Proof.
  unfold find_minimum_bandgap, cell. cbn [j_layers bandgaps solid l_attr String.eqb Ascii.eqb Bool.eqb bindR fold_left].
  pose proof q_pos. f_equal. assert (E : 2 * q / q = 2) by (field; lra). rewrite E. apply Rmin_left. lra.
Qed.

Lemma Rmax_dec_r a b : a <= b -> Rmax a b = b. Proof. apply Rmax_right. Qed.

(** One run upwards, with any solver: the voltages 0, ..., of the table. *)
Lemma cell_run slv T vs vstep level n hi cs : 0 < hi <= 2 -> 0 <= T -> vstep <> 0 ->
  INR n * Rabs vstep <= hi + Rabs vstep / 10 < INR (S n) * Rabs vstep ->
  np_max vs = Ok hi -> (exists lo, np_min vs = Ok lo /\ 0 <= lo) ->
  (exists a b r, vs = a :: b :: r /\ b - a = vstep) -> level = Num 1 ->
  exists c1 c2, equilibrium_pdd (fun _ => 7) cell inner_options cs = (c1, Ok tt) /\ c2 = c1 ++ [CRunIV hi (Rabs vstep) level] /\
  exists d, iv_pdd (fun _ => 7) slv cell (run_options T vs) cs = (c2, Ok d) /\ iv_voltage d = vs /\
    iv_current d = map (fun v => np_interp (ramp (Rabs vstep) (S n)) (rows_of slv c2 1 "J" (S n)) v + v / 10 ^ 14) vs.
Proof.
  intros Hhi HT Hvs Hn Emax (lo & Emin & Hlo) (a & b & r & Evs & Eab) ->.
  destruct (cell_equilibrium cs) as [c1 E1]. exists c1, (c1 ++ [CRunIV hi (Rabs vstep) (Num 1)]). split; [exact E1|]. split; [reflexivity|].
  assert (Ha : 0 < Rabs vstep) by now apply Rabs_pos_lt.
  assert (Es : hi / Rabs hi * Rabs vstep = Rabs vstep) by (rewrite (Rabs_right hi) by lra; field; lra).
  assert (Er : runiv_voltages hi (Rabs vstep) = Some (ramp (Rabs vstep) (S n))).
  { apply runiv_voltages_uniq; [lra|nra|]. rewrite !(Rabs_right (Rabs vstep)), (Rabs_right hi) by lra. exact Hn. }
  assert (Ec : calculate_iv (fun _ => 7) slv cell hi vstep (Flag false) (Num 1) inner_options cs
     = (c1 ++ [CRunIV hi (Rabs vstep) (Num 1)],
        Ok (dump_iv slv (c1 ++ [CRunIV hi (Rabs vstep) (Num 1)]) (ramp (Rabs vstep) (S n))))).
  { unfold calculate_iv. replace (clash _ inner_options) with false by reflexivity. cbv zeta. cbn [truthy].
    unfold bindI at 1. rewrite E1. rewrite Es. unfold bindI, emit, calls. rewrite Er. reflexivity. }
  assert (Fr : front_np (c1 ++ [CRunIV hi (Rabs vstep) (Num 1)]) = (3, 0)).
  { apply (front_np_regions (fun _ => 7) cell _ (solid 1 3 0) [solid 1 0 3]); try reflexivity.
    rewrite fortran_quiet_regions by (intros; discriminate). now apply C110_layers in E1 as [E1 _]. }
  eexists. split.
  - unfold iv_pdd. replace (clash ["junction"] (run_options T vs)) with false by reflexivity.
    change (lookup "internal_voltages" (run_options T vs)) with (Some (Vec vs)). cbn [as_vec]. rewrite bind_lift_ok.
    change (as_num (default (Num 298) (lookup "T" (run_options T vs)))) with (Ok T). rewrite bind_lift_ok. cbv zeta.
    change (default (Flag false) (lookup "light_iv" (run_options T vs))) with (Flag false).
    change (default (Num 1) (lookup "output_iv" (run_options T vs))) with (Num 1).
    rewrite inner_options_eq.
    rewrite Emax, bind_lift_ok. destruct (Rle_dec hi 0) as [|_]; [exfalso; lra|]. rewrite cell_gap, bind_lift_ok.
    replace (match j_layers cell with l :: _ => Ok l | [] => Err IndexError end) with (Ok (solid 1 3 0)) by reflexivity. rewrite bind_lift_ok.
    change (l_attr (solid 1 3 0) "Na") with (Ok 3). change (l_attr (solid 1 3 0) "Nd") with (Ok 0). rewrite !bind_lift_ok.
    destruct (Rle_dec 0 3) as [_|]; [|exfalso; lra]. rewrite Emax, bind_lift_ok, Emin, bind_lift_ok.
    rewrite Evs at 1. rewrite bind_lift_ok, Eab.
    rewrite find_voltage_limits_inside by lra. cbn [fst snd]. destruct (Rlt_dec 0 hi) as [_|]; [|exfalso; lra].
    unfold bindI at 1. rewrite Ec. destruct (Rlt_dec lo 0) as [|_]; [exfalso; lra|].
    unfold bindI at 1. unfold ret at 1. unfold dump_iv. rewrite Fr. cbn [fst snd]. destruct (Rlt_dec 3 0) as [|_]; [exfalso; lra|].
    unfold consolidate_iv. rewrite bind_lift_ok. unfold lookup. cbn [find fst snd map currents String.eqb Ascii.eqb Bool.eqb].
    rewrite !bind_lift_ok. reflexivity.
  - cbn [iv_voltage iv_current]. split; [reflexivity|]. apply map_ext. intros v.
    unfold cell at 1. cbn [j_shunt]. rewrite scale_twice by ring. unfold rows_of, scale_by. rewrite map_map, ramp_length. reflexivity.
Qed.

(** The property C107 on a grid of three equal steps: the hypotheses are met. *)
Example C107_case slv : exists cs' d,
  iv_pdd (fun _ => 7) slv cell (run_options 300 [0; 1 / 2; 1; 3 / 2]) [] = (cs', Ok d) /\ iv_voltage d = [0; 1 / 2; 1; 3 / 2] /\
  forall v, In v [0; 1 / 2; 1; 3 / 2] -> exists z, v = IZR z * (1 / 2).
Proof.
  destruct (cell_run slv 300 [0; 1 / 2; 1; 3 / 2] (1 / 2) (Num 1) 3 (3 / 2) []) as (c1 & c2 & _ & _ & d & E & Ev & _); [lra|lra|lra|..].
  - rewrite Rabs_right by lra. simpl. lra.
  - unfold np_max. cbn [fold_left]. rewrite (Rmax_right 0 (1 / 2)), (Rmax_right (1 / 2) 1), (Rmax_right 1 (3 / 2)) by lra. reflexivity.
  - exists 0. split; [|lra]. unfold np_min. cbn [fold_left]. rewrite (Rmin_left 0 (1 / 2)), (Rmin_left 0 1), (Rmin_left 0 (3 / 2)) by lra. reflexivity.
  - exists 0, (1 / 2), [1; 3 / 2]. split; [reflexivity|lra].
  - reflexivity.
  - exists c2, d. split; [exact E|]. split; [exact Ev|]. intros v Hv. simpl in Hv.
    destruct Hv as [<-|[<-|[<-|[<-|[]]]]]; [exists 0%Z|exists 1%Z|exists 2%Z|exists 3%Z]; lra.
Qed.

(** On other grids the property fails: the step is taken from the first two voltages, and
    the solver stops at the last multiple of it.  Asked for 0, 0.3 and 0.5 V, with a gap
    of 2 V, iv_pdd returns at 0.5 V the current the solver found at 0.3 V, whatever the
    solver is. *)
Theorem C107_uneven_grid_refuted : exists dflt J o vs gap, lookup "internal_voltages" o = Some (Vec vs) /\
  find_minimum_bandgap J = Ok gap /\ (forall v, In v vs -> 0 <= v < gap) /\ NoDup vs /\
  forall slv, exists cs' d i j, iv_pdd dflt slv J o [] = (cs', Ok d) /\ (i < j < length vs)%nat /\ at_ vs i < at_ vs j /\
    at_ (iv_current d) i - at_ vs i / shunt_of J = at_ (iv_current d) j - at_ vs j / shunt_of J.
Proof.
  exists (fun _ => 7), cell, (run_options 300 [0; 3 / 10; 5 / 10]), [0; 3 / 10; 5 / 10], 2.
  split; [reflexivity|]. split; [apply cell_gap|]. split; [intros v Hv; simpl in Hv; destruct Hv as [<-|[<-|[<-|[]]]]; lra|].
  split. { repeat apply NoDup_cons; try apply NoDup_nil; simpl; intros H; repeat destruct H as [H|H]; try lra; try contradiction. }
  intros slv.
  destruct (cell_run slv 300 [0; 3 / 10; 5 / 10] (3 / 10) (Num 1) 1 (5 / 10) []) as (c1 & c2 & _ & _ & d & E & Ev & Ec); [lra|lra|lra|..].
  - rewrite Rabs_right by lra. simpl. lra.
  - unfold np_max. cbn [fold_left]. rewrite (Rmax_right 0 (3 / 10)), (Rmax_right (3 / 10) (5 / 10)) by lra. reflexivity.
  - exists 0. split; [|lra]. unfold np_min. cbn [fold_left]. rewrite (Rmin_left 0 (3 / 10)), (Rmin_left 0 (5 / 10)) by lra. reflexivity.
  - exists 0, (3 / 10), [5 / 10]. split; [reflexivity|lra].
  - reflexivity.
  - exists c2, d, 1%nat, 2%nat. split; [exact E|]. split; [simpl; lia|]. split; [simpl; lra|]. rewrite Ec, Rabs_right by lra.
    cbn [map nth]. unfold shunt_of, cell. cbn [j_shunt].
    set (big := 10 ^ 14). assert (big <> 0) by (unfold big; apply pow_nonzero; lra). clearbody big.
    assert (Hend : forall v, 3 / 10 <= v -> np_interp (ramp (3 / 10) 2) (rows_of slv c2 1 "J" 2) v = 1 * slv c2 1%nat "J").
    { intros v Hv. unfold np_interp, ramp. cbn [seq map count_le INR].
      destruct (Rle_dec (0 * (3 / 10)) v) as [_|]; [|lra]. destruct (Rle_dec (1 * (3 / 10)) v) as [_|]; [|lra]. reflexivity. }
    rewrite !Hend by lra. field. assumption.
Qed.

(** The counterexample to C65: with the cell at 400 K, the solver runs at the 300 K it
    was compiled with. *)
Theorem C65_temperature_refuted : exists dflt J o, lookup "T" o = Some (Num 400) /\
  forall slv, exists cs' d, iv_pdd dflt slv J o [] = (cs', Ok d) /\ f_var (fortran_after cs') "t" = Some (Num 300) /\ Num 300 <> Num 400.
Proof.
  exists (fun _ => 7), cell, (run_options 400 [0; 1]). split; [reflexivity|]. intros slv.
  destruct (cell_run slv 400 [0; 1] 1 (Num 1) 1 1 []) as (c1 & c2 & _ & _ & d & E & _); [lra|lra|lra|..].
  - rewrite Rabs_right by lra. simpl. lra.
  - unfold np_max. cbn [fold_left]. now rewrite Rmax_right by lra.
  - exists 0. split; [|lra]. unfold np_min. cbn [fold_left]. now rewrite Rmin_left by lra.
  - exists 0, 1, []. split; [reflexivity|lra].
  - reflexivity.
  - exists c2, d. split; [exact E|]. split; [|intros [= H]; lra].
    destruct (C65_temperature_ignored (fun _ => 7) slv cell (run_options 400 [0; 1]) []) as [Q _].
    specialize (Q (fun cs => fst (iv_pdd (fun _ => 7) slv cell (run_options 400 [0; 1]) cs)) ltac:(simpl; auto 10)). cbv beta in Q.
    rewrite E in Q. cbn [fst] in Q. rewrite Q. reflexivity.
Qed.
Example C65_case slv : iv_pdd (fun _ => 7) slv cell (at_temperature 250 (run_options 300 [0; 1])) []
  = iv_pdd (fun _ => 7) slv cell (at_temperature 400 (run_options 300 [0; 1])) [].
Proof.
  destruct (C65_temperature_ignored (fun _ => 7) slv cell (run_options 300 [0; 1]) []) as (_ & _ & H).
  apply (H 250 400 2 [0; 1]); try lra; try reflexivity; [apply cell_gap| |].
  - exists 1. split; [right; now left|lra].
  - intros v Hv. simpl in Hv. destruct Hv as [<-|[<-|[]]]; lra.
Qed.

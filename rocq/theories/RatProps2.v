(** C149: the absorption profile and the absorptances of the layers. *)
From Coq Require Import Reals String List Arith Bool Lra Lia Psatz.
From Coquelicot Require Import Coquelicot.
From Verif Require Import Common InterpModel NpModel BeerLambertModel TmmLayersModel TmmLayersProps TmmModel TmmProps IncModel IncProps
  StackModel RatModel RatProps.
From Coq Require Import List.
Import ListNotations.
Open Scope R_scope.
Open Scope list_scope.

(** * Where a depth lies *)
Definition depth_of (l : list (C * R)) (i : nat) : R := total (map snd (firstn i l)).
Lemma count_at : forall (ds : list R) a i z, Forall (fun d => 0 <= d) ds -> (i < length ds)%nat ->
  a + total (firstn i ds) <= z < a + total (firstn i ds) + nth i ds 0 ->
  count_le (psums a ds) z = S i /\ at_ (psums a ds) i = a + total (firstn i ds).
Proof.
  induction ds as [|x ds IH]; intros a i z F Hi Hz; [cbn in Hi; lia|].
  assert (Hx := Forall_inv F). cbn beta in Hx. destruct i as [|i].
  - cbn [firstn total nth] in Hz. cbn [psums count_le]. destruct (Rle_dec a z); [|lra].
    split; [|cbn; lra]. f_equal. destruct ds as [|y ds]; cbn [psums count_le]; destruct (Rle_dec (a + x) z); try lra; reflexivity.
  - cbn [firstn total nth] in Hz.
    assert (T0 : 0 <= total (firstn i ds)).
    { apply total_nonneg'. apply Forall_inv_tail in F. rewrite <- (firstn_skipn i ds) in F. now apply Forall_app in F. }
    destruct (IH (a + x) i z (Forall_inv_tail F)) as [E1 E2]; [cbn in Hi; lia|lra|].
    cbn [psums count_le nth firstn total]. destruct (Rle_dec a z); [|lra]. rewrite E1. split; [reflexivity|].
    rewrite E2. lra.
Qed.

Lemma find_at l i z : Forall (fun x => 0 <= snd x) l -> (i < length l)%nat ->
  0 <= z < snd (nth i l (RtoC 0, 0)) ->
  find_in_structure_with_inf (stack_d l) (depth_of l i + z) = Ok (S i, z).
Proof.
  intros F Hi Hz. unfold find_in_structure_with_inf, find_in_structure. rewrite inner_stack, finite_all_some.
  assert (F' : Forall (fun d => 0 <= d) (map snd l)) by (now apply Forall_map).
  assert (En : nth i (map snd l) 0 = snd (nth i l (RtoC 0, 0))) by (change 0 with (snd (RtoC 0, 0)) at 1; apply map_nth).
  destruct (count_at (map snd l) 0 i (depth_of l i + z) F') as [E1 E2].
  - now rewrite map_length.
  - rewrite En. unfold depth_of. rewrite firstn_map. lra.
  - rewrite E1, E2. f_equal. f_equal. unfold depth_of. rewrite firstn_map. lra.
Qed.

(** * The flux through a layer *)
Lemma poyn_move pol n c kz v w n0 c0 z :
  poyn pol n c kz v w n0 c0 z = poyn pol n c kz (E_f v kz z) (E_b w kz z) n0 c0 0.
Proof. unfold poyn. now rewrite E_f_0, E_b_0. Qed.
Lemma amplitudes_nth_front pol lam beta : forall l nf t i, (i <= length l)%nat ->
  nth i (amplitudes (lms pol lam beta l nf) t) (RtoC 0, RtoC 0) = front pol lam beta (skipn i l) nf t.
Proof.
  induction l as [|[n d] l IH]; intros nf t i Hi.
  - destruct i; [reflexivity|cbn in Hi; lia].
  - destruct i as [|i]; [reflexivity|]. cbn [lms amplitudes nth skipn]. apply IH. cbn in Hi. lia.
Qed.
Lemma skipn_nth_cons {X} (l : list X) i d : (i < length l)%nat -> skipn i l = nth i l d :: skipn (S i) l.
Proof.
  revert i. induction l as [|x l IH]; intros i Hi; [cbn in Hi; lia|]. destruct i as [|i]; [reflexivity|].
  cbn [skipn nth]. apply IH. cbn in Hi. lia.
Qed.
Lemma nxt_skipn (l : list (C * R)) nf i d : (i <= length l)%nat ->
  nth i (map fst l ++ [nf]) d = nxt (skipn i l) nf.
Proof.
  revert i. induction l as [|[n x] l IH]; intros i Hi.
  - destruct i; [reflexivity|cbn in Hi; lia].
  - destruct i as [|i]; [reflexivity|]. cbn [map app nth skipn fst]. apply IH. cbn in Hi. lia.
Qed.
(** The flux at the far side of a layer (whose phase is not capped) is that at the near side of
    the next one. *)
Lemma flux_continuous pol lam (beta : R) l nf t i n d (n0 c0 : C) : valid_pol pol -> 0 < lam -> 0 <= beta ->
  Forall (medium_ok pol lam beta) l -> passive beta nf ->
  nth_error l i = Some (n, d) -> Im (kz_of lam n (cos_in beta n) * d)%C <= 100 ->
  let vw := nth i (amplitudes (lms pol lam beta l nf) t) (RtoC 0, RtoC 0) in
  let kz := kz_of lam n (cos_in beta n) in
  poyn pol n (cos_in beta n) kz (fst vw) (snd vw) n0 c0 0 = Ok (nth i (fluxes pol lam beta l nf t) 0 / A0 pol n0 c0) /\
  poyn pol n (cos_in beta n) kz (fst vw) (snd vw) n0 c0 d = Ok (nth (S i) (fluxes pol lam beta l nf t) 0 / A0 pol n0 c0).
Proof.
  intros Hpol Hl Hb H Hf En Hc vw kz.
  assert (Hi : (i < length l)%nat) by (apply nth_error_Some; congruence).
  assert (Ei : nth i l (RtoC 0, 0) = (n, d)) by (now apply nth_error_nth).
  assert (Ev : vw = front pol lam beta (skipn i l) nf t) by (apply amplitudes_nth_front; lia).
  assert (Sk := skipn_nth_cons l i (RtoC 0, 0) Hi). rewrite Ei in Sk.
  assert (Hi_ok : Forall (medium_ok pol lam beta) (skipn i l)).
  { rewrite <- (firstn_skipn i l) in H. now apply Forall_app in H. }
  split.
  - rewrite poyn_flux by exact Hpol. rewrite fluxes_nth by lia. rewrite nxt_skipn by lia.
    fold vw. rewrite Sk. cbn [nxt]. now rewrite <- surjective_pairing.
  - rewrite poyn_move, poyn_flux by exact Hpol. rewrite fluxes_nth by lia. rewrite nxt_skipn by lia.
    rewrite amplitudes_nth_front by lia. f_equal. f_equal.
    rewrite Sk in Ev, Hi_ok. rewrite front_cons in Ev.
    assert (Hn : passive beta n) by exact (proj1 (Forall_inv Hi_ok)).
    assert (Hx := nxt_passive pol lam beta _ nf (Forall_inv_tail Hi_ok) Hf).
    rewrite <- (fl_interface pol beta n (nxt (skipn (S i) l) nf)) by auto.
    set (u := mapply (jmat pol (med beta n) (med beta (nxt (skipn (S i) l) nf))) (front pol lam beta (skipn (S i) l) nf t)) in *.
    f_equal. rewrite Ev. unfold dl, delta_of, cap_delta, med. cbn [fst snd].
    destruct (Rlt_dec 100 (Im (kz_of lam n (cos_in beta n) * d)%C)) as [F|_]; [lra|]. fold kz.
    unfold mapply, pmat, E_f, E_b. cbn [m00 m01 m10 m11 fst snd].
    assert (X : forall z : C, (cexp (- z) * cexp z)%C = 1).
    { intros z. rewrite <- cexp_plus. replace (- z + z)%C with (RtoC 0) by ring. apply cexp_0. }
    assert (X1 := X (Ci * (kz * d))%C).
    replace (Ci * kz * d)%C with (Ci * (kz * d))%C by ring.
    destruct u as [u1 u2]. cbn [fst snd].
    set (e1 := cexp (- (Ci * (kz * d)))%C) in *. set (e2 := cexp (Ci * (kz * d))%C) in *. clearbody e1 e2.
    f_equal; [transitivity ((e1 * e2) * u1)%C|transitivity ((e1 * e2) * u2)%C]; try ring; rewrite X1; ring.
Qed.
Lemma drops_nth : forall (l : list R) j, (S j < length l)%nat -> nth j (drops l) 0 = nth j l 0 - nth (S j) l 0.
Proof.
  induction l as [|x l IH]; intros j Hj; [cbn in Hj; lia|]. destruct l as [|y l]; [cbn in Hj; lia|].
  change (drops (x :: y :: l)) with ((x - y) :: drops (y :: l)). destruct j as [|j]; [reflexivity|].
  cbn [nth]. rewrite IH by (cbn in *; lia). reflexivity.
Qed.

Lemma nonincr_step : forall (F : list R) i, nonincr F -> (S i < length F)%nat -> nth (S i) F 0 <= nth i F 0.
Proof.
  induction F as [|x F IH]; intros i N Hi; [cbn in Hi; lia|]. destruct F as [|y F]; [cbn in Hi; lia|].
  destruct N as [N1 N2]. destruct i as [|i]; [exact N1|]. cbn [nth]. apply (IH i N2). cbn in *. lia.
Qed.

(** * The profile in one layer, one polarisation *)
Definition keep (thr x : R) : R := if Rlt_dec x thr then 0 else x.
Lemma absor_dark pol n c kz n0 c0 z : valid_pol pol -> absor pol n c kz (RtoC 0) (RtoC 0) n0 c0 z = Ok 0.
Proof.
  intros Hp. unfold absor, E_f, E_b.
  set (e := cexp (Ci * kz * z)%C). set (g := cexp (- (Ci * kz * z))%C). clearbody e g.
  replace (0 * e + 0 * g)%C with (RtoC 0) by ring. replace (0 * e - 0 * g)%C with (RtoC 0) by ring.
  rewrite Cmod_0. destruct Hp as [->| ->]; cbn [String.eqb Ascii.eqb Bool.eqb]; f_equal; unfold Rdiv.
  - transitivity (0 * / Re (n0 * c0)%C); [|ring]. f_equal. destruct n, c, kz. cbn. ring.
  - transitivity (0 * / Re (n0 * Cconj c0)%C); [|ring]. f_equal. destruct n, c, kz. cbn. ring.
Qed.
Lemma layer_density pol (n0 th lam : R) l nf thr i n d : valid_pol pol -> 0 < lam -> 0 < n0 -> 0 <= th < PI / 2 ->
  let beta := n0 * sin th in
  Forall (medium_ok pol lam beta) l -> passive beta nf ->
  nth_error l i = Some (n, d) -> Im (kz_of lam n (cos_in beta n) * d)%C <= 100 ->
  forall D A, coh_tmm pol (stack_n n0 l nf) (stack_d l) (sin th) (cos th) lam = Ok D -> absorp_in_each_layer D = Ok A ->
  exists f, (forall z, absor_in (quiet thr A D) (S i) z = Ok (f z)) /\ is_RInt f 0 d (keep thr (nth (S i) A 0)).
Proof.
  intros Hpol Hl Hn Hth beta H Hf En Hc D A ED EA.
  destruct (incident_transparent n0 th Hn Hth) as [Hb H0]. fold beta in Hb, H0.
  assert (Hc0 := cos_in_angle n0 th Hn Hth). fold beta in Hc0.
  assert (HB : (RtoC n0 * RtoC (sin th) = beta)%C) by (unfold beta; now rewrite RtoC_mult).
  assert (HO := coh_tmm_stack pol n0 (sin th) (cos th) l nf lam beta Hpol HB). cbv zeta in HO.
  fold (out pol lam beta n0 (cos th) l nf) in HO. rewrite ED in HO. injection HO as HO. subst D.
  destruct (powers_out pol lam beta n0 l nf Hpol Hl Hb H0 H Hf) as (HP & _ & _). cbv zeta in HP.
  rewrite Hc0 in HP.
  set (t := (1 / m00 (mt pol lam beta n0 l nf))%C) in *. set (a := A0 pol n0 (cos th)) in *.
  set (F := fluxes pol lam beta l nf t) in *.
  destruct (C42_balance_partial pol n0 th lam l nf Hpol Hl Hn Hth H Hf) as (D' & A' & B1 & B2 & B3 & B4 & _).
  rewrite ED in B1. injection B1 as <-. rewrite EA in B2. injection B2 as <-.
  assert (Hi : (i < length l)%nat) by (apply nth_error_Some; congruence).
  assert (LF : length F = S (length l)) by apply fluxes_length.
  assert (Ai : nth (S i) A 0 = nth i F 0 / a - nth (S i) F 0 / a).
  { assert (EA' := EA). unfold absorp_in_each_layer in EA'. rewrite HP in EA'. cbn [bindR] in EA'. injection EA' as EA'.
    set (L := 1 :: map (fun f => f / a) F) in *.
    assert (LL : length L = S (S (length l))) by (unfold L; cbn [length]; now rewrite map_length, LF).
    assert (DL : nth (S i) (drops L) 0 = nth i F 0 / a - nth (S i) F 0 / a).
    { rewrite drops_nth by lia. unfold L. cbn [nth].
      assert (Mn : forall j, nth j (map (fun f => f / a) F) 0 = nth j F 0 / a).
      { intros j. transitivity (nth j (map (fun f => f / a) F) (0 / a)); [f_equal; unfold Rdiv; ring|apply (map_nth (fun f => f / a))]. }
      rewrite !Mn. reflexivity. }
    rewrite <- EA'. transitivity (nth (S i) (map clamp0 (drops L)) (clamp0 0)).
    { f_equal. unfold clamp0. destruct (Rlt_dec 0 0); reflexivity. }
    rewrite map_nth, DL. unfold clamp0. destruct (Rlt_dec _ 0) as [N|_]; [|reflexivity]. exfalso.
    assert (NI := fluxes_nonincr pol lam beta l nf t Hpol Hl Hb H Hf). fold F in NI.
    assert (Step : nth (S i) F 0 <= nth i F 0).
    { apply nonincr_step; [exact NI|lia]. }
    assert (Pa : 0 < a).
    { unfold a. rewrite <- Hc0, (A0_cond pol beta n0 Hpol).
      destruct (passive_med pol beta n0 Hpol Hb (transparent_passive _ _ H0)) as (_ & _ & P & _). exact P. }
    assert (nth (S i) F 0 / a <= nth i F 0 / a).
    { unfold Rdiv. apply Rmult_le_compat_r; [left; now apply Rinv_0_lt_compat|exact Step]. }
    lra. }
  set (vw := nth i (amplitudes (lms pol lam beta l nf) t) (RtoC 0, RtoC 0)).
  set (kz := kz_of lam n (cos_in beta n)).
  assert (Nn : nth i (map fst l ++ [nf]) (RtoC 0) = n).
  { rewrite nxt_skipn by lia. rewrite (skipn_nth_cons l i (RtoC 0, 0) Hi), (nth_error_nth _ _ _ En). reflexivity. }
  assert (Ab : forall z, absor_in (quiet thr A (out pol lam beta n0 (cos th) l nf)) (S i) z
    = absor pol n (cos_in beta n) kz
        (if Rlt_dec (nth (S i) A 0) thr then RtoC 0 else fst vw) (if Rlt_dec (nth (S i) A 0) thr then RtoC 0 else snd vw)
        n0 (cos th) z).
  { intros z. unfold absor_in, quiet, out. cbn [cd_vw cd_pol cd_n cd_cos cd_kz cd_cos0]. fold t.
    assert (LN : (S i < length (stack_n n0 l nf))%nat).
    { unfold stack_n. cbn [length]. rewrite app_length, map_length. cbn. lia. }
    rewrite (nth_indep (map (cos_in beta) (stack_n n0 l nf)) (RtoC 0) (cos_in beta 0)) by (now rewrite map_length).
    rewrite map_nth.
    rewrite (nth_indep (map (fun n => kz_of lam n (cos_in beta n)) (stack_n n0 l nf)) (RtoC 0) (kz_of lam 0 (cos_in beta 0)))
      by (now rewrite map_length).
    rewrite (map_nth (fun n => kz_of lam n (cos_in beta n))).
    change (nth (S i) (stack_n n0 l nf) (RtoC 0)) with (nth i (map fst l ++ [nf]) (RtoC 0)).
    change (hd (RtoC 0) (stack_n n0 l nf)) with (RtoC n0). rewrite Nn. fold kz.
    set (g := fun i0 : nat => if (i0 <? length A - 1)%nat && (if Rlt_dec (nth i0 A 0) thr then true else false)
                              then (RtoC 0, RtoC 0) else nth i0 ((RtoC 0, RtoC 0) :: amplitudes (lms pol lam beta l nf) t) (RtoC 0, RtoC 0)).
    set (len := length ((RtoC 0, RtoC 0) :: amplitudes (lms pol lam beta l nf) t)).
    assert (Ll : len = S (S (length l))) by (unfold len; cbn [length]; now rewrite amplitudes_length, lms_length).
    assert (Eg : nth (S i) (map g (seq 0 len)) (RtoC 0, RtoC 0) = g (S i)).
    { rewrite (nth_indep _ _ (g 0%nat)) by (rewrite map_length, seq_length; lia).
      rewrite map_nth, seq_nth by lia. reflexivity. }
    rewrite Eg. unfold g. rewrite B3. replace (S i <? length l + 2 - 1)%nat with true by (symmetry; apply Nat.ltb_lt; lia).
    cbn [andb nth]. fold vw. destruct (Rlt_dec (nth (S i) A 0) thr); reflexivity. }
  unfold keep. destruct (Rlt_dec (nth (S i) A 0) thr) as [Lt|Ge].
  - exists (fun _ => 0). split; [intros z; rewrite Ab; now apply absor_dark|].
    assert (Q := @is_RInt_const R_NormedModule 0 d 0). unfold scal in Q; cbn in Q. unfold mult in Q; cbn in Q.
    replace ((d - 0) * 0) with 0 in Q by ring. exact Q.
  - destruct (C82_density pol n (cos_in beta n) lam (fst vw) (snd vw) n0 (cos th) Hpol Hl) as (P & f & P1 & P2 & _ & P4).
    exists f. split; [intros z; rewrite Ab; apply P2|].
    destruct (flux_continuous pol lam beta l nf t i n d n0 (cos th) Hpol Hl Hb H Hf En Hc) as [F1 F2]. fold vw kz a F in F1, F2.
    fold kz in P1. rewrite P1 in F1, F2. injection F1 as F1. injection F2 as F2.
    rewrite Ai, <- F1, <- F2. apply P4.
Qed.

(** * C149 *)
Lemma rat_parts o s wl angle pol cl r ns :
  get_indices o s wl = Ok ns -> calculate_rat o s wl angle pol true cl = Ok r ->
  let by_ q D A := coh_tmm q ns (get_widths o s) (sin (radians angle)) (cos (radians angle)) wl = Ok D /\
                   absorp_in_each_layer D = Ok A in
  (in_sp pol = true /\ exists D A, by_ pol D A /\ ra_out r = OutCoh D A /\ ra_layers r = A) \/
  (in_sp pol = false /\ exists S As P Ap, by_ "s"%string S As /\ by_ "p"%string P Ap /\
     ra_out r = OutCoh2 S As P Ap /\ ra_layers r = halves Ap As).
Proof.
  intros Ei E by_. unfold calculate_rat, check_list in E. cbn [bindR] in E. rewrite Ei in E. cbn [bindR] in E. cbv zeta in E.
  destruct (in_sp pol); [left|right]; (split; [reflexivity|]).
  - destruct (coh_tmm pol ns _ _ _ wl) as [D|] eqn:E1; [|discriminate]. cbn [bindR] in E.
    destruct (absorp_in_each_layer D) as [A|] eqn:E2; [|discriminate]. cbn [bindR] in E. injection E as <-.
    exists D, A. repeat split; assumption.
  - destruct (coh_tmm "p" ns _ _ _ wl) as [P|] eqn:E1; [|discriminate]. cbn [bindR] in E.
    destruct (coh_tmm "s" ns _ _ _ wl) as [S'|] eqn:E2; [|discriminate]. cbn [bindR] in E.
    destruct (absorp_in_each_layer P) as [Ap|] eqn:E3; [|discriminate]. cbn [bindR] in E.
    destruct (absorp_in_each_layer S') as [As|] eqn:E4; [|discriminate]. cbn [bindR] in E. injection E as <-.
    exists S', As, P, Ap. repeat split; assumption.
Qed.
(** What the profile of a layer integrates to, given the absorptances of all layers: that of the
    layer, or nothing if it is below the threshold (judged for each polarisation). *)
Definition profile_integral (by_ : string -> list R -> Prop) (pol : string) (thr : R) (j : nat) (v : R) : Prop :=
  (single pol /\ exists A, by_ pol A /\ v = keep thr (nth j A 0)) \/
  (mixed_light pol /\ exists a b, by_ "s"%string a /\ by_ "p"%string b /\
     v = (keep thr (nth j a 0) + keep thr (nth j b 0)) / 2).
Theorem C149_layer_partial : forall o s wl angle pol (n0 : R) l nf cl thr,
  forall th, th = angle * PI / 180 ->
  get_indices o s wl = Ok (stack_n n0 l nf) -> get_widths o s = stack_d l ->
  0 < wl -> 0 < n0 -> 0 <= th < PI / 2 -> (single pol \/ mixed_light pol) ->
  let beta := n0 * sin th in
  (forall q, needed pol q ->
     Forall (fun x => passive beta (fst x) /\ 0 <= snd x /\ benign q wl beta x) l) -> passive beta nf ->
  exists r, calculate_rat o s wl angle pol true cl = Ok r /\
    forall i n d, nth_error l i = Some (n, d) -> Im (kz_of wl n (cos_in beta n) * d)%C <= 100 ->
    exists f v,
      (forall z, 0 <= z < d -> absorption_profile (get_widths o s) r thr (depth_of l i + z) = Ok (f z)) /\
      is_RInt f 0 d v /\
      profile_integral (by_layer (stack_n n0 l nf) (stack_d l) th wl) pol thr (S i) v.
Proof.
  intros o s wl angle pol n0 l nf cl thr th Hdeg Ei Ew Hwl Hn Hth Hpol beta Hm Hf.
  replace (angle * PI / 180) with (radians angle) in Hdeg by (unfold radians; field). subst th.
  destruct (rat_coherent o s wl angle pol n0 l nf cl Ei Ew Hwl Hn Hth Hpol Hm Hf) as (r & mid & E & _).
  exists r. split; [exact E|]. intros i n d En Hc.
  assert (Hi : (i < length l)%nat) by (apply nth_error_Some; congruence).
  assert (W : Forall (fun x => 0 <= snd x) l).
  { assert (Q : exists q, needed pol q).
    { destruct Hpol as [P|P]; [exists pol; now left|exists "s"%string; right; split; [exact P|now left]]. }
    destruct Q as [q Hq]. eapply Forall_impl; [|exact (Hm q Hq)]. intros x (_ & X & _). exact X. }
  assert (Nd : nth i l (RtoC 0, 0) = (n, d)) by (now apply nth_error_nth).
  assert (Loc : forall z, 0 <= z < d -> find_in_structure_with_inf (get_widths o s) (depth_of l i + z) = Ok (S i, z)).
  { intros z Hz. rewrite Ew. apply find_at; [exact W|exact Hi|now rewrite Nd]. }
  assert (RP := rat_parts o s wl angle pol cl r _ Ei E). cbv zeta in RP. rewrite Ew in RP.
  destruct Hpol as [P|P].
  - destruct RP as [(_ & D & A & [B1 B2] & B3 & B4)|(F & _)]; [|rewrite (single_in_sp _ P) in F; discriminate].
    destruct (layer_density pol n0 (radians angle) wl l nf thr i n d P Hwl Hn Hth (Hm pol (or_introl (conj P eq_refl))) Hf En Hc D A B1 B2)
      as (f & F1 & F2).
    exists f, (keep thr (nth (S i) A 0)). split.
    { intros z Hz. unfold absorption_profile. rewrite (Loc z Hz), B3. cbn [bindR fst snd]. apply F1. }
    split; [exact F2|]. left. split; [exact P|]. exists A. split; [now exists D|reflexivity].
  - destruct RP as [(F & _)|(_ & S' & As & P' & Ap & [B1 B2] & [B3 B4] & B5 & B6)]; [rewrite (mixed_in_sp _ P) in F; discriminate|].
    destruct (layer_density "s" n0 (radians angle) wl l nf thr i n d (or_introl eq_refl) Hwl Hn Hth
               (Hm _ (or_intror (conj P (or_introl eq_refl)))) Hf En Hc S' As B1 B2) as (f & F1 & F2).
    destruct (layer_density "p" n0 (radians angle) wl l nf thr i n d (or_intror eq_refl) Hwl Hn Hth
               (Hm _ (or_intror (conj P (or_intror eq_refl)))) Hf En Hc P' Ap B3 B4) as (g & G1 & G2).
    exists (fun z => / 2 * (f z + g z)), (/ 2 * (keep thr (nth (S i) As 0) + keep thr (nth (S i) Ap 0))). split.
    { intros z Hz. unfold absorption_profile. rewrite (Loc z Hz), B5. cbn [bindR fst snd].
      rewrite F1. cbn [bindR]. rewrite G1. reflexivity. }
    split.
    { apply (is_RInt_scal (fun z => f z + g z)). now apply (is_RInt_plus f g). }
    right. split; [exact P|]. exists As, Ap. split; [now exists S'|]. split; [now exists P'|]. lra.
Qed.

Lemma depth_step l i n d : nth_error l i = Some (n, d) -> depth_of l (S i) = depth_of l i + d.
Proof.
  unfold depth_of. revert i. induction l as [|x l IH]; intros i H; [destruct i; discriminate|].
  destruct i as [|i]; cbn in H.
  - injection H as ->. cbn. lra.
  - rewrite firstn_cons. rewrite (firstn_cons i). cbn [map total]. rewrite (IH i H). lra.
Qed.
Definition value (x : res R) : R := match x with Ok v => v | Err _ => 0 end.
Lemma is_RInt_shift (f : R -> R) a d v : is_RInt f 0 d v -> is_RInt (fun z => f (z - a)) a (a + d) v.
Proof.
  intros H. assert (Q := @is_RInt_comp_lin R_NormedModule f 1 (- a) a (a + d) v).
  replace (1 * a + - a) with 0 in Q by ring. replace (1 * (a + d) + - a) with d in Q by ring.
  specialize (Q H). eapply is_RInt_ext; [|exact Q]. intros z _. unfold scal; cbn. unfold mult; cbn.
  rewrite Rmult_1_l. f_equal. ring.
Qed.
(** The claim of the docstring (transfer_matrix.py:680-684): integrated over the whole structure
    the profile gives the absorption that [calculate_rat] reports, when no phase is capped and
    no layer falls under the threshold. *)
Theorem C149_total_partial : forall o s wl angle pol (n0 : R) l nf cl thr,
  forall th, th = angle * PI / 180 ->
  get_indices o s wl = Ok (stack_n n0 l nf) -> get_widths o s = stack_d l ->
  0 < wl -> 0 < n0 -> 0 <= th < PI / 2 -> (single pol \/ mixed_light pol) ->
  let beta := n0 * sin th in
  (forall q, needed pol q ->
     Forall (fun x => passive beta (fst x) /\ 0 <= snd x /\ Im (kz_of wl (fst x) (cos_in beta (fst x)) * snd x)%C <= 100) l) ->
  passive beta nf ->
  (forall q A, needed pol q -> by_layer (stack_n n0 l nf) (stack_d l) th wl q A ->
     forall i, (i < length l)%nat -> nth (S i) A 0 = 0 \/ thr <= nth (S i) A 0) ->
  exists r, calculate_rat o s wl angle pol true cl = Ok r /\
    is_RInt (fun z => value (absorption_profile (get_widths o s) r thr z)) 0 (depth_of l (length l)) (ra_A r) /\
    ra_A r = 1 - ra_R r - ra_T r.
Proof.
  intros o s wl angle pol n0 l nf cl thr th Hdeg Ei Ew Hwl Hn Hth Hpol beta Hm Hf Hthr.
  replace (angle * PI / 180) with (radians angle) in Hdeg by (unfold radians; field). subst th.
  assert (Hm' : forall q, needed pol q -> Forall (fun x => passive beta (fst x) /\ 0 <= snd x /\ benign q wl beta x) l).
  { intros q Hq. eapply Forall_impl; [|exact (Hm q Hq)]. intros x (X1 & X2 & X3). split; [exact X1|]. split; [exact X2|].
    left. exact X3. }
  destruct (rat_coherent o s wl angle pol n0 l nf cl Ei Ew Hwl Hn Hth Hpol Hm' Hf)
    as (r0 & mid & E0 & EA & Lm & _ & TA & RA & AB & _).
  destruct (C149_layer_partial o s wl angle pol n0 l nf cl thr (radians angle) ltac:(unfold radians; field) Ei Ew Hwl Hn Hth Hpol Hm' Hf) as (r & E & Lay).
  rewrite E in E0. injection E0 as <-.
  exists r. split; [exact E|].
  assert (RA' : ra_A r = 1 - ra_R r - ra_T r).
  { rewrite EA in TA. cbn [total] in TA. rewrite total_app' in TA. cbn [total] in TA. lra. }
  split; [|exact RA'].
  set (F := fun z => value (absorption_profile (get_widths o s) r thr z)).
  assert (Uncapped : forall i n d, nth_error l i = Some (n, d) -> 0 <= d /\ Im (kz_of wl n (cos_in beta n) * d)%C <= 100).
  { intros i n d En. assert (Q : exists q, needed pol q).
    { destruct Hpol as [P|P]; [exists pol; now left|exists "s"%string; right; split; [exact P|now left]]. }
    destruct Q as [q Hq]. assert (X := proj1 (Forall_forall _ _) (Hm q Hq) _ (nth_error_In _ _ En)). cbn in X. tauto. }
  assert (Kp : forall x, x = 0 \/ thr <= x -> keep thr x = x).
  { intros x [->|Hx]; unfold keep; destruct (Rlt_dec _ thr); auto; lra. }
  assert (One : forall i n d, nth_error l i = Some (n, d) ->
    is_RInt F (depth_of l i) (depth_of l i + d) (nth i mid 0)).
  { intros i n d En. destruct (Uncapped i n d En) as [Hd Hc].
    assert (Hi : (i < length l)%nat) by (apply nth_error_Some; congruence).
    destruct (Lay i n d En Hc) as (f & v & F1 & F2 & F3).
    assert (Ev : v = nth i mid 0).
    { replace (nth i mid 0) with (nth (S i) (ra_layers r) 0).
      2:{ rewrite EA. cbn [nth]. rewrite app_nth1 by lia. reflexivity. }
      destruct F3 as [(P & A & B1 & ->)|(P & a & b & B1 & B2 & ->)].
      - rewrite (Kp _ (Hthr pol A (or_introl (conj P eq_refl)) B1 i Hi)).
        destruct AB as [(_ & B2)|(P' & _)]; [|destruct (single_not_mixed _ P P')].
        destruct B1 as (D1 & X1 & X2), B2 as (D2 & Y1 & Y2). rewrite X1 in Y1. injection Y1 as <-.
        rewrite X2 in Y2. injection Y2 as <-. reflexivity.
      - rewrite (Kp _ (Hthr _ a (or_intror (conj P (or_introl eq_refl))) B1 i Hi)).
        rewrite (Kp _ (Hthr _ b (or_intror (conj P (or_intror eq_refl))) B2 i Hi)).
        destruct AB as [(P' & _)|(_ & a' & b' & A1 & A2 & (_ & _ & A3))]; [destruct (single_not_mixed _ P' P)|].
        rewrite A3.
        destruct B1 as (D1 & X1 & X2), A1 as (D2 & Y1 & Y2). rewrite X1 in Y1. injection Y1 as <-.
        rewrite X2 in Y2. injection Y2 as <-.
        destruct B2 as (D3 & X3 & X4), A2 as (D4 & Y3 & Y4). rewrite X3 in Y3. injection Y3 as <-.
        rewrite X4 in Y4. injection Y4 as <-. reflexivity. }
    rewrite <- Ev. eapply is_RInt_ext; [|exact (is_RInt_shift f (depth_of l i) d v F2)].
    intros z Hz. rewrite Rmin_left, Rmax_right in Hz by lra. unfold F.
    replace z with (depth_of l i + (z - depth_of l i)) at 2 by ring. rewrite F1 by lra. reflexivity. }
  assert (Sum : forall i, (i <= length l)%nat -> is_RInt F 0 (depth_of l i) (total (firstn i mid))).
  { induction i as [|i IH]; intros Hi.
    - unfold depth_of. cbn [firstn map total]. apply (@is_RInt_point R_NormedModule F 0).
    - destruct (nth_error l i) as [[n d]|] eqn:En; [|apply nth_error_None in En; lia].
      rewrite (depth_step l i n d En).
      replace (total (firstn (S i) mid)) with (plus (total (firstn i mid)) (nth i mid 0)).
      2:{ assert (Q : forall (m : list R) k, (k < length m)%nat -> total (firstn (S k) m) = total (firstn k m) + nth k m 0).
          { clear. induction m as [|x m IH]; intros k Hk; [cbn in Hk; lia|]. destruct k as [|k]; [cbn; lra|].
            rewrite firstn_cons. rewrite (firstn_cons k). cbn [total nth]. rewrite IH by (cbn in Hk; lia). lra. }
          symmetry. apply Q. lia. }
      apply (is_RInt_Chasles F 0 (depth_of l i)); [apply IH; lia|exact (One i n d En)]. }
  specialize (Sum (length l) (le_n _)). rewrite <- Lm, firstn_all, Lm in Sum. rewrite RA. exact Sum.
Qed.

(** Proofs about QwUnitModel: absorption (C170) and the effective layers (C171). *)
From Coq Require Import Reals String List Bool Arith Lra Lia Psatz.
From Verif Require Import Common PhysConst NpModel InterpModel InterpProps DetBalModel QwUnitModel QwUnitProps QwUnitProps2 QwUnitProps3.
From Coq Require Import List.
Import ListNotations.
Open Scope R_scope.
Open Scope list_scope.

(** * C170 *)
Lemma nearest_from_spec v l : forall i best d (P : nat -> R -> Prop), P best d -> (forall j x, nth_error l j = Some x -> P (i + j)%nat (Rabs (x - v))) ->
  exists d', P (nearest_from v i best d l) d' /\ d' <= d /\ forall x, In x l -> d' <= Rabs (x - v).
Proof.
  induction l as [|x l IH]; intros i best d P H0 H; cbn [nearest_from]; [exists d; split; [exact H0|]; split; [lra|intros x []]|].
  assert (HX : P i (Rabs (x - v))) by (specialize (H 0%nat x eq_refl); now rewrite Nat.add_0_r in H).
  assert (HR : forall j y, nth_error l j = Some y -> P (S i + j)%nat (Rabs (y - v))) by (intros j y Hj; replace (S i + j)%nat with (i + S j)%nat by lia; now apply H).
  destruct (Rlt_dec (Rabs (x - v)) d) as [D|D].
  - destruct (IH (S i) i (Rabs (x - v)) P HX HR) as (d' & A & B & C). exists d'. split; [exact A|]. split; [lra|]. intros y [<-|Hy]; [exact B|now apply C].
  - destruct (IH (S i) best d P H0 HR) as (d' & A & B & C). exists d'. split; [exact A|]. split; [lra|]. intros y [<-|Hy]; [lra|now apply C].
Qed.
(** The edge is at the wavelength of the grid that is nearest to that of the mean gap of the
    barriers. *)
Theorem C170_edge : forall u wl hp, wl <> [] -> let e := edge_index u wl hp in
  let edge := 1240 / 10 ^ 9 / (barrier_gap u hp / q) in
  (e < length wl)%nat /\ forall w, In w wl -> Rabs (at_ wl e - edge) <= Rabs (w - edge).
Proof.
  intros u wl hp NE e edge. unfold e, edge_index. fold (barrier_gap u hp). fold edge. destruct wl as [|x wl]; [contradiction|]. cbn [nearest].
  destruct (nearest_from_spec edge wl 1 0 (Rabs (x - edge)) (fun i d => (i < length (x :: wl))%nat /\ d = Rabs (at_ (x :: wl) i - edge))) as (d' & (A & B) & C & D).
  - cbn. split; [lia|reflexivity].
  - intros j y Hj. cbn [Nat.add nth length]. assert (j < length wl)%nat by (apply nth_error_Some; now rewrite Hj). split; [lia|]. now rewrite (nth_error_nth wl j 0 Hj).
  - split; [exact A|]. intros w [<-|Hw]; rewrite <- B; [exact C|now apply D].
Qed.
Lemma zero_from_length e a : length (zero_from e a) = length a.
Proof. unfold zero_from. rewrite app_length, map_length, <- app_length, firstn_skipn. reflexivity. Qed.
Lemma zero_from_nth e a j : (j < length a)%nat -> at_ (zero_from e a) j = if (j <? e)%nat then at_ a j else 0.
Proof.
  intros H. unfold zero_from. destruct (Nat.ltb_spec j e) as [L|L].
  - rewrite app_nth1 by (rewrite firstn_length; lia). rewrite <- (firstn_skipn e a) at 2. rewrite app_nth1 by (rewrite firstn_length; lia). reflexivity.
  - rewrite app_nth2 by (rewrite firstn_length; lia). set (k := (j - _)%nat). clearbody k. generalize (skipn e a). clear. intros l. revert k. induction l as [|x l IH]; intros [|k]; cbn; auto.
Qed.
Lemma at_map (f : R -> R) l j : (j < length l)%nat -> at_ (map f l) j = f (at_ l j).
Proof. intros H. rewrite (nth_indep (map f l) 0 (f 0)) by (now rewrite map_length). apply map_nth. Qed.
Lemma at_combine (f : R * R -> R) a b j : (j < length a)%nat -> (j < length b)%nat -> at_ (map f (combine a b)) j = f (at_ a j, at_ b j).
Proof.
  revert b j. induction a as [|x a IH]; intros [|y b] [|j] Ha Hb; cbn [length] in Ha, Hb; try lia; [reflexivity|]. cbn [combine map nth]. apply IH; lia.
Qed.
Definition abs_item (u : qw_unit) (ua : bool) (s : solution) (wl : list R) (e : nat) (hp : heap) (t : option string * nat) (m : mat) : mat :=
  set_absorption (layer_absorption (fst t) e (u_width u) (l_width (layers hp (snd t))) (s_alpha s) (bulk_absorption ua wl m)) m.
Lemma abs_loop u ua s wl e ts : forall hp,
  mats (fold_left (absorption_step u ua s wl e) ts hp) = fold_left (change (fun t => l_material (layers hp (snd t))) (abs_item u ua s wl e hp)) ts (mats hp) /\
  layers (fold_left (absorption_step u ua s wl e) ts hp) = layers hp.
Proof.
  induction ts as [|t ts IH]; intros hp; cbn [fold_left]; [split; reflexivity|]. destruct (IH (absorption_step u ua s wl e hp t)) as (I1 & I2).
  assert (EL : layers (absorption_step u ua s wl e hp t) = layers hp) by reflexivity. rewrite I1, I2, EL. split; [|reflexivity].
  assert (EI : abs_item u ua s wl e (absorption_step u ua s wl e hp t) = abs_item u ua s wl e hp) by reflexivity. rewrite EI. reflexivity.
Qed.
Lemma abs_items u hp : length (u_labels u) = length (u_layers u) ->
  map (fun t : option string * nat => l_material (layers hp (snd t))) (combine (u_labels u) (u_layers u)) = materials u hp.
Proof. intros L. unfold materials. rewrite <- (map_map snd (fun i => l_material (layers hp i))). now rewrite map_snd_combine. Qed.
Lemma abs_result u ua s wl hp k : NoDup (materials u hp) -> length (u_labels u) = length (u_layers u) -> (k < length (u_layers u))%nat ->
  let i := l_material (layers hp (nth k (u_layers u) 0%nat)) in
  mats (fst (calculate_absorption u ua s wl hp)) i = abs_item u ua s wl (edge_index u wl hp) hp (nth k (u_labels u) None, nth k (u_layers u) 0%nat) (mats hp i).
Proof.
  intros ND L Hk i. unfold calculate_absorption. cbv zeta. cbn [fst].
  destruct (abs_loop u ua s wl (edge_index u wl hp) (combine (u_labels u) (u_layers u)) hp) as (E & _). rewrite E.
  refine (change_same (fun t : option string * nat => l_material (layers hp (snd t))) _ _ (mats hp) _ (nth k (u_labels u) None, nth k (u_layers u) 0%nat) _).
  - rewrite abs_items by exact L. exact ND.
  - apply (nth_error_In _ k). apply nth_error_combine; apply nth_error_in_range; lia.
Qed.
Lemma bulk_is ua wl m : bulk_absorption ua wl m = map (alpha m) wl.
Proof. unfold bulk_absorption, adachi_of_string. now destruct ua. Qed.
(** The absorption of a layer with a material of its own: that of the bulk up to the edge and
    nothing beyond it; in a well what of the bulk exceeds the bulk at the edge, and the share of the
    confined levels that is due to its width. *)
Theorem C170_absorption_partial : forall u ua s wl hp k, NoDup (materials u hp) -> length (u_labels u) = length (u_layers u) -> (k < length (u_layers u))%nat ->
  wl <> [] -> length (s_alpha s) = length wl ->
  let l := layers hp (nth k (u_layers u) 0%nat) in let m := mats hp (l_material l) in let m' := mats (fst (calculate_absorption u ua s wl hp)) (l_material l) in
  let e := edge_index u wl hp in let bulk j := 4 * PI * m_k m (at_ wl j) / at_ wl j in
  exists a, m_absorption m' = Some a /\ length a = length wl /\
    (nth k (u_labels u) None = Some "well"%string -> forall j, (j < length wl)%nat ->
       ((j < e)%nat -> at_ a j = Rmax 0 (bulk j - bulk e) + at_ (s_alpha s) j * l_width l / u_width u) /\
       ((e <= j)%nat -> at_ a j = at_ (s_alpha s) j * l_width l / u_width u)) /\
    (nth k (u_labels u) None <> Some "well"%string -> forall j, (j < length wl)%nat ->
       ((j < e)%nat -> at_ a j = bulk j) /\ ((e <= j)%nat -> at_ a j = 0)) /\
    m_k m' = m_k m /\ m_n m' = m_n m /\ m_Nc m' = m_Nc m /\ m_Nv m' = m_Nv m /\ m_gap m' = m_gap m /\ m_affinity m' = m_affinity m.
Proof.
  intros u ua s wl hp k ND L Hk NE LA l m m' e bulk.
  assert (E : m' = abs_item u ua s wl e hp (nth k (u_labels u) None, nth k (u_layers u) 0%nat) m) by (now apply abs_result).
  destruct (C170_edge u wl hp NE) as (He & _). fold e in He.
  unfold abs_item in E. cbn [fst snd] in E. fold l in E. rewrite bulk_is in E.
  set (a := layer_absorption (nth k (u_labels u) None) e (u_width u) (l_width l) (s_alpha s) (map (alpha m) wl)) in E.
  assert (LM : length (map (alpha m) wl) = length wl) by apply map_length.
  assert (AB : forall j, (j < length wl)%nat -> at_ (map (alpha m) wl) j = bulk j) by (intros j Hj; rewrite at_map by exact Hj; reflexivity).
  assert (WELL : nth k (u_labels u) None = Some "well"%string ->
    a = map (fun p => fst p + snd p * l_width l / u_width u) (combine (map (fun v => if Rlt_dec v 0 then 0 else v) (zero_from e (map (fun v => v - nth e (map (alpha m) wl) 0) (map (alpha m) wl)))) (s_alpha s))).
  { intros W. unfold a. rewrite W. reflexivity. }
  assert (OTHER : nth k (u_labels u) None <> Some "well"%string -> a = zero_from e (map (alpha m) wl)).
  { intros W. unfold a, layer_absorption. destruct (nth k (u_labels u) None) as [r|]; [|reflexivity].
    repeat match goal with |- context [match ?x with EmptyString => _ | String _ _ => _ end] => destruct x; try reflexivity
           | |- context [match ?x with Ascii.Ascii _ _ _ _ _ _ _ _ => _ end] => destruct x
           | |- context [if ?b then _ else _] => is_var b; destruct b; try reflexivity end; try reflexivity. exfalso. now apply W. }
  clearbody a. rewrite E. exists a. cbn [set_absorption m_absorption m_k m_n m_Nc m_Nv m_gap m_affinity]. split; [reflexivity|].
  split.
  { destruct (option_map (String.eqb "well") (nth k (u_labels u) None)) as [[|]|] eqn:B.
    - destruct (nth k (u_labels u) None) as [r|]; [|discriminate]. cbn [option_map] in B. assert (B0 : String.eqb "well" r = true) by congruence. clear B. rename B0 into B. apply String.eqb_eq in B. rewrite (WELL (f_equal Some (eq_sym B))).
      rewrite map_length, combine_length, map_length, zero_from_length, map_length, LM, LA. lia.
    - rewrite OTHER; [rewrite zero_from_length; exact LM|]. intros W. rewrite W in B. discriminate B.
    - rewrite OTHER; [rewrite zero_from_length; exact LM|]. intros W. rewrite W in B. discriminate B. }
  split.
  { intros W j Hj. rewrite (WELL W). rewrite at_combine by (rewrite ?map_length, ?zero_from_length, ?map_length, ?LM, ?LA; lia). cbn [fst snd].
    rewrite at_map by (rewrite ?zero_from_length, ?map_length; lia). rewrite zero_from_nth by (rewrite ?map_length; lia). rewrite at_map by (rewrite ?map_length; lia).
    rewrite !AB by assumption. split; intros J.
    - apply Nat.ltb_lt in J. rewrite J. f_equal. unfold Rmax. destruct (Rlt_dec _ _), (Rle_dec _ _); lra.
    - apply Nat.ltb_ge in J. rewrite J. destruct (Rlt_dec 0 0); [lra|]. ring. }
  split; [|repeat split; reflexivity].
  intros W j Hj. rewrite (OTHER W), zero_from_nth by (rewrite LM; exact Hj). rewrite AB by exact Hj. split; intros J.
  - apply Nat.ltb_lt in J. now rewrite J.
  - apply Nat.ltb_ge in J. now rewrite J.
Qed.
(** The absorption of the unit is that of its last layer: beyond the edge it is zero between
    barriers, also where the wells absorb. *)
Theorem C170_total_refuted : forall u ua s wl hp k tot, NoDup (materials u hp) -> length (u_labels u) = length (u_layers u) -> (k < length (u_layers u))%nat ->
  wl <> [] -> length (s_alpha s) = length wl -> 0 < u_width u ->
  let l := layers hp (nth k (u_layers u) 0%nat) in 0 < l_width l -> nth k (u_labels u) None = Some "well"%string ->
  nth (length (u_layers u) - 1) (u_labels u) None = Some "barrier"%string ->
  snd (calculate_absorption u ua s wl hp) = Some tot ->
  forall j, (edge_index u wl hp <= j < length wl)%nat -> 0 < at_ (s_alpha s) j ->
  exists a, m_absorption (mats (fst (calculate_absorption u ua s wl hp)) (l_material l)) = Some a /\ 0 < at_ a j /\ at_ tot j = 0.
Proof.
  intros u ua s wl hp k tot ND L Hk NE LA PW l PL LW LB HT j Hj PA.
  destruct (C170_absorption_partial u ua s wl hp k ND L Hk NE LA) as (a & A1 & A2 & A3 & _). exists a. split; [exact A1|].
  destruct (A3 LW j (proj2 Hj)) as (_ & A). rewrite A by apply Hj. fold l. split; [apply Rdiv_lt_0_compat; [apply Rmult_lt_0_compat|]; assumption|].
  set (n := (length (u_layers u) - 1)%nat) in *. assert (Hn : (n < length (u_layers u))%nat) by (unfold n; lia).
  destruct (C170_absorption_partial u ua s wl hp n ND L Hn NE LA) as (b & B1 & B2 & _ & B3 & _).
  assert (EL : last (u_layers u) 0%nat = nth n (u_layers u) 0%nat).
  { unfold n. generalize (u_layers u). clear. intros l. induction l as [|x [|y l] IH]; [reflexivity|reflexivity|]. change (last (x :: y :: l) 0%nat) with (last (y :: l) 0%nat). rewrite IH. cbn [length]. rewrite !Nat.sub_succ, Nat.sub_0_r. reflexivity. }
  assert (EQ : m_absorption (mats (fst (calculate_absorption u ua s wl hp)) (l_material (layers hp (nth n (u_layers u) 0%nat)))) = Some tot).
  { rewrite <- HT. unfold calculate_absorption. cbv zeta. cbn [fst snd]. rewrite EL.
    destruct (abs_loop u ua s wl (edge_index u wl hp) (combine (u_labels u) (u_layers u)) hp) as (_ & E). rewrite E. reflexivity. }
  assert (ET : tot = b) by congruence. rewrite ET. apply (B3 ltac:(rewrite LB; discriminate) j (proj2 Hj)). apply Hj.
Qed.
(** Asking for the Adachi model has no effect. *)
Theorem C170_adachi_refuted : forall u s wl hp, calculate_absorption u true s wl hp = calculate_absorption u false s wl hp.
Proof. reflexivity. Qed.
(** The energies worked out from wavelengths, passed as parameters, are wavelengths 10^18 times as
    long. *)
Theorem C170_units_refuted : forall wl, (forall w, In w wl -> 0 < w) -> wavelengths_of (energies_of wl) = map (fun w => 10 ^ 18 * w) wl.
Proof.
  intros wl H. unfold wavelengths_of, energies_of. rewrite map_map. apply map_ext_in. intros w Hw. specialize (H w Hw). pose proof q_pos. field. repeat split; lra.
Qed.

(** * C171 *)
Section Effective.
Context (erfc : R -> R) (kp8x8 : mat -> (R * R * R) * (R * R * R)) (strain : mat -> R * R * R).
Definition eff_item (T : R) (hp : heap) (i : nat) (m : mat) : mat :=
  match l_eff_gap (layers hp i), l_eff_affinity (layers hp i) with
  | Some g, Some a => Mat g a (m_vbo m) (m_me m) (m_mhh m) (m_mlh m) (m_n m) (m_k m) (m_Ncc m) (m_Nvhh m) (m_Nvlh m) (m_Nc m) (m_Nv m)
                          (sqrt (m_Nc m * m_Nv m * exp (- g / (kb * T)))) (m_absorption m) (m_radiative m)
  | _, _ => m
  end.
Lemma eff_loop T ids : forall hp h', each (fun i hh => effective_step T hh i) ids hp = Ok h' ->
  layers h' = layers hp /\ mats h' = fold_left (change (fun i => l_material (layers hp i)) (eff_item T hp)) ids (mats hp) /\
  forall i, In i ids -> exists g a, l_eff_gap (layers hp i) = Some g /\ l_eff_affinity (layers hp i) = Some a.
Proof.
  induction ids as [|i ids IH]; intros hp h' H; cbn [each] in H; [injection H as <-; split; [reflexivity|]; split; [reflexivity|intros i []]|].
  destruct (effective_step T hp i) as [h1|] eqn:E; [|discriminate H]. cbn [bindR] in H. destruct (IH _ _ H) as (I1 & I2 & I3).
  unfold effective_step in E. destruct (l_eff_gap (layers hp i)) as [g|] eqn:EG; [|discriminate E]. destruct (l_eff_affinity (layers hp i)) as [a|] eqn:EA; [|discriminate E].
  assert (EL : layers h1 = layers hp) by (injection E as <-; reflexivity). rewrite EL in I1. split; [exact I1|]. split.
  - rewrite I2. cbn [fold_left].
    assert (F : eff_item T h1 = eff_item T hp) by (unfold eff_item; rewrite EL; reflexivity). rewrite F, EL. f_equal. injection E as <-.
    unfold change, eff_item. rewrite EG, EA. reflexivity.
  - intros j [<-|Hj]; [exists g, a; split; assumption|]. destruct (I3 j Hj) as (g' & a' & K). rewrite EL in K. exists g', a'. exact K.
Qed.
Definition opt_item (T : R) (wl : list R) (i : nat) (m : mat) : mat :=
  match m_absorption m with
  | None => m
  | Some a =>
      let kk := map (fun p => fst p * snd p / 4 / PI) (combine a wl) in
      let m1 := Mat (m_gap m) (m_affinity m) (m_vbo m) (m_me m) (m_mhh m) (m_mlh m) (m_n m) (scipy_interp wl kk 0 0)
                    (m_Ncc m) (m_Nvhh m) (m_Nvlh m) (m_Nc m) (m_Nv m) (m_ni m) (m_absorption m) (m_radiative m) in
      let es := map (fun w => 1240 / 10 ^ 9 / w * q) wl in
      Mat (m_gap m) (m_affinity m) (m_vbo m) (m_me m) (m_mhh m) (m_mlh m) (m_n m) (scipy_interp wl kk 0 0)
          (m_Ncc m) (m_Nvhh m) (m_Nvlh m) (m_Nc m) (m_Nv m) (m_ni m) (m_absorption m) (- np_trapz (map (emission_rate T m1) es) es)
  end.
Lemma opt_loop T wl ids : forall hp acc h' out, each (optical_step T wl) ids (hp, acc) = Ok (h', out) ->
  layers h' = layers hp /\ out = acc ++ map (fun i => (l_width (layers hp i), l_material (layers hp i))) ids /\
  mats h' = fold_left (change (fun i => l_material (layers hp i)) (opt_item T wl)) ids (mats hp) /\
  forall i, In i ids -> exists a, m_absorption (mats hp (l_material (layers hp i))) = Some a.
Proof.
  induction ids as [|i ids IH]; intros hp acc h' out H; cbn [each] in H.
  - injection H as <- <-. split; [reflexivity|]. split; [now rewrite app_nil_r|]. split; [reflexivity|intros i []].
  - unfold optical_step at 1 in H. cbn [fst snd] in H. destruct (m_absorption (mats hp (l_material (layers hp i)))) as [a|] eqn:EA; [|discriminate H].
    cbn [bindR] in H. destruct (IH _ _ _ _ H) as (I1 & I2 & I3 & I4). cbn [layers set_mat] in I1, I2, I3, I4. split; [exact I1|]. split; [rewrite I2, <- app_assoc; reflexivity|]. split.
    + rewrite I3. cbn [fold_left set_mat mats]. f_equal. unfold change, opt_item. rewrite EA. reflexivity.
    + intros j [<-|Hj]; [exists a; exact EA|]. destruct (I4 j Hj) as (b & Hb). cbn [mats set_mat] in Hb.
      destruct (Nat.eq_dec (l_material (layers hp j)) (l_material (layers hp i))) as [E|E]; [rewrite E; exists a; exact EA|]. rewrite upd_other in Hb by exact E. exists b. exact Hb.
Qed.
Lemma solve_keeps u mode ua wa s wl hp r : solve erfc kp8x8 strain u mode ua wa s wl hp = Ok r ->
  forall i, l_width (layers (fst r) i) = l_width (layers hp i) /\ l_material (layers (fst r) i) = l_material (layers hp i).
Proof.
  unfold solve. intros H i. destruct (band_edges kp8x8 strain u mode s hp) as [h1|] eqn:E; [|discriminate H]. cbn [bindR] in H.
  destruct (band_edges_inv _ _ _ _ _ _ _ E) as (e0 & hh0 & lh0 & se & sh & _ & _ & _ & _ & _ & EH).
  match type of EH with _ = fold_left _ ?t _ => destruct (edges_mats (u_T u) t hp) as (_ & K) end. rewrite <- EH in K.
  assert (LD : layers (density_of_states erfc u s h1) = layers h1).
  { unfold density_of_states. cbv zeta. match goal with |- layers (fold_left (dos_step _ _ _ ?a ?b ?c) ?t _) = _ => apply (dos_loop erfc u s a b c t h1) end. }
  assert (LF : layers (fst r) = layers h1).
  { injection H as <-. destruct wa; [|exact LD]. unfold calculate_absorption. cbv zeta. cbn [fst].
    match goal with |- layers (fold_left (absorption_step _ _ _ _ ?e) ?t ?g) = _ => rewrite (proj2 (abs_loop u ua s wl e t g)) end. exact LD. }
  rewrite LF. split; apply K.
Qed.
Lemma effective_inv u mode ua wa s wl hp h' out : effective erfc kp8x8 strain u mode ua wa s wl hp = Ok (h', out) ->
  exists r h1 n, solve erfc kp8x8 strain u mode ua wa s wl hp = Ok r /\ u_repeat u = Some n /\
    layers h1 = layers (fst r) /\ layers h' = layers (fst r) /\
    mats h1 = fold_left (change (fun i => l_material (layers hp i)) (eff_item (u_T u) (fst r))) (u_layers u) (mats (fst r)) /\
    mats h' = fold_left (change (fun i => l_material (layers hp i)) (opt_item (u_T u) wl)) (u_layers u) (mats h1) /\
    out = concat (List.repeat (map (fun i => (l_width (layers hp i), l_material (layers hp i))) (u_layers u)) n) /\
    (forall i, In i (u_layers u) -> exists g a, l_eff_gap (layers h' i) = Some g /\ l_eff_affinity (layers h' i) = Some a) /\
    (forall i, In i (u_layers u) -> exists a, m_absorption (mats h1 (l_material (layers hp i))) = Some a).
Proof.
  unfold effective. intros H. destruct (solve erfc kp8x8 strain u mode ua wa s wl hp) as [r|] eqn:ES; [|discriminate H]. cbn [bindR] in H.
  pose proof (solve_keeps _ _ _ _ _ _ _ _ ES) as K.
  destruct (each (fun i hh => effective_step (u_T u) hh i) (u_layers u) (fst r)) as [h1|] eqn:E1; [|discriminate H]. cbn [bindR] in H.
  destruct (each (optical_step (u_T u) wl) (u_layers u) (h1, [])) as [o|] eqn:E2; [|discriminate H]. cbn [bindR] in H.
  destruct (u_repeat u) as [n|]; [|discriminate H]. destruct o as [h2 o]. cbn [fst snd] in H. injection H as <- <-.
  destruct (eff_loop _ _ _ _ E1) as (A1 & A2 & A3). destruct (opt_loop _ _ _ _ _ _ _ E2) as (B1 & B2 & B3 & B4). rewrite A1 in B1, B2, B3, B4.
  assert (MM : forall (f : nat -> mat -> mat) ids M, fold_left (change (fun i => l_material (layers (fst r) i)) f) ids M = fold_left (change (fun i => l_material (layers hp i)) f) ids M).
  { intros f ids. induction ids as [|i ids IH]; intros M; [reflexivity|]. cbn [fold_left]. rewrite IH. f_equal. unfold change. now rewrite (proj2 (K i)). }
  rewrite MM in A2, B3. exists r, h1, n. split; [reflexivity|]. split; [reflexivity|]. split; [exact A1|]. split; [exact B1|]. split; [exact A2|]. split; [exact B3|]. split; [|split].
  - rewrite B2. cbn [app]. f_equal. f_equal. apply map_ext. intros i. now rewrite (proj1 (K i)), (proj2 (K i)).
  - intros i Hi. rewrite B1. now apply A3.
  - intros i Hi. rewrite <- (proj2 (K i)). now apply B4.
Qed.
Lemma upper l : exists b : R, 0 <= b /\ forall x, In x l -> x <= b.
Proof.
  induction l as [|x l (b & B0 & B)]; [exists 0; split; [lra|intros x []]|]. exists (Rmax x b). split; [apply (Rle_trans _ b); [lra|apply Rmax_r]|].
  intros y [<-|Hy]; [apply Rmax_l|]. apply (Rle_trans _ b); [now apply B|apply Rmax_r].
Qed.
Lemma trapz_falling : forall y x, length y = length x -> (forall v, In v y -> 0 <= v) -> (forall i, (S i < length x)%nat -> at_ x (S i) <= at_ x i) -> np_trapz y x <= 0.
Proof.
  induction y as [|y0 [|y1 y] IH]; intros [|x0 [|x1 x]] Hl Hy Hx; cbn [length] in Hl; try discriminate; try (cbn; lra).
  rewrite np_trapz_cons. assert (np_trapz (y1 :: y) (x1 :: x) <= 0).
  { apply IH; [cbn [length]; lia|intros v Hv; apply Hy; now right|]. intros i Hi. apply (Hx (S i)). cbn [length] in *. lia. }
  assert (0 <= y0) by (apply Hy; now left). assert (0 <= y1) by (apply Hy; right; now left). assert (x1 <= x0) by (apply (Hx 0%nat); cbn [length]; lia). nra.
Qed.
(** If the layers have materials of their own: the list has the layers of the unit, as often as asked
    for, and their materials have the effective gap, affinity and intrinsic density, an extinction
    coefficient that gives the absorption on the grid and none outside of it, and a radiative
    coefficient that is not negative. *)
Theorem C171_effective_partial : forall u mode ua wa s wl hp h' out, effective erfc kp8x8 strain u mode ua wa s wl hp = Ok (h', out) -> NoDup (materials u hp) ->
  increasing wl -> (2 <= length wl)%nat -> 0 < at_ wl 0 ->
  (exists n, u_repeat u = Some n /\ length out = (n * length (u_layers u))%nat /\
     forall r k, (r < n)%nat -> (k < length (u_layers u))%nat -> let l := layers hp (nth k (u_layers u) 0%nat) in
       nth_error out (r * length (u_layers u) + k) = Some (l_width l, l_material l)) /\
  forall k, (k < length (u_layers u))%nat -> let i := nth k (u_layers u) 0%nat in let m' := mats h' (l_material (layers hp i)) in
    l_eff_gap (layers h' i) = Some (m_gap m') /\ l_eff_affinity (layers h' i) = Some (m_affinity m') /\
    (0 <= m_Nc m' * m_Nv m' -> m_ni m' ^ 2 = m_Nc m' * m_Nv m' * exp (- m_gap m' / (kb * u_T u))) /\
    exists a, m_absorption m' = Some a /\ (length a = length wl ->
      (forall j, (j < length wl)%nat -> 4 * PI * m_k m' (at_ wl j) / at_ wl j = at_ a j) /\
      (forall w, w < at_ wl 0 \/ at_ wl (length wl - 1) < w -> m_k m' w = 0) /\
      ((forall v, In v a -> 0 <= v) -> 0 <= m_radiative m')).
Proof.
  intros u mode ua wa s wl hp h' out H ND Hx Hl H0.
  destruct (effective_inv _ _ _ _ _ _ _ _ _ H) as (r & h1 & n & _ & ER & L1 & L2 & M1 & M2 & EO & EG & EA). split.
  - exists n. split; [exact ER|]. rewrite EO. clear. set (f := fun i => (l_width (layers hp i), l_material (layers hp i))). split.
    + induction n as [|n IH]; [reflexivity|]. cbn [List.repeat concat]. rewrite app_length, map_length, IH. lia.
    + intros r k Hr Hk. revert r Hr. induction n as [|n IH]; intros r Hr; [lia|]. cbn [List.repeat concat]. destruct r as [|r].
      * cbn [Nat.mul Nat.add]. rewrite nth_error_app1 by (now rewrite map_length). rewrite nth_error_map, (nth_error_in_range _ k 0%nat) by exact Hk. reflexivity.
      * rewrite nth_error_app2 by (rewrite map_length; cbn [Nat.mul]; lia). rewrite map_length.
        replace (S r * length (u_layers u) + k - length (u_layers u))%nat with (r * length (u_layers u) + k)%nat by (cbn [Nat.mul]; lia). apply IH. lia.
  - intros k Hk i m'. assert (Hi : In i (u_layers u)) by (now apply nth_In).
    assert (E1 : mats h1 (l_material (layers hp i)) = eff_item (u_T u) (fst r) i (mats (fst r) (l_material (layers hp i)))).
    { rewrite M1. exact (change_same (fun i => l_material (layers hp i)) _ _ _ ND i Hi). }
    assert (E2 : m' = opt_item (u_T u) wl i (mats h1 (l_material (layers hp i)))).
    { unfold m'. rewrite M2. exact (change_same (fun i => l_material (layers hp i)) _ _ _ ND i Hi). }
    destruct (EG i Hi) as (g & af & G1 & G2). destruct (EA i Hi) as (a & A1). rewrite L2 in G1, G2.
    set (m1 := mats h1 (l_material (layers hp i))) in *. set (m0 := mats (fst r) (l_material (layers hp i))) in *.
    unfold eff_item in E1. rewrite G1, G2 in E1. unfold opt_item in E2. rewrite A1 in E2. cbv zeta in E2. rewrite L2.
    assert (F1 : m_gap m' = g) by (rewrite E2, E1; reflexivity). assert (F2 : m_affinity m' = af) by (rewrite E2, E1; reflexivity).
    assert (F3 : m_ni m' = sqrt (m_Nc m' * m_Nv m' * exp (- m_gap m' / (kb * u_T u)))) by (rewrite E2, E1; reflexivity).
    split; [rewrite F1; exact G1|]. split; [rewrite F2; exact G2|]. split.
    { intros P. rewrite F3. rewrite pow2_sqrt; [reflexivity|]. apply Rmult_le_pos; [exact P|]. left. apply exp_pos. }
    exists a. split; [rewrite E2; reflexivity|]. intros LA. set (kk := map (fun p => fst p * snd p / 4 / PI) (combine a wl)) in E2.
    assert (Fk : m_k m' = scipy_interp wl kk 0 0) by (rewrite E2; reflexivity).
    assert (LK : length kk = length wl) by (unfold kk; rewrite map_length, combine_length; lia).
    assert (PW : forall j, (j < length wl)%nat -> 0 < at_ wl j).
    { intros j Hj. destruct j as [|j]; [exact H0|]. assert (at_ wl 0 < at_ wl (S j)) by (apply Hx; lia). lra. }
    assert (VK : forall j, (j < length wl)%nat -> at_ kk j = at_ a j * at_ wl j / 4 / PI).
    { intros j Hj. unfold kk. rewrite at_combine by lia. reflexivity. }
    pose proof PI_RGT_0 as PP. split; [|split].
    + intros j Hj. rewrite Fk, scipy_interp_node by assumption. rewrite VK by exact Hj. specialize (PW j Hj). field. split; lra.
    + intros w Hw. rewrite Fk. unfold scipy_interp. destruct (Rlt_dec w (at_ wl 0)); [reflexivity|]. destruct (Rlt_dec (at_ wl (length wl - 1)) w); [reflexivity|]. lra.
    + intros PA. assert (FB : m_radiative m' = - np_trapz (map (emission_rate (u_T u) (Mat (m_gap m1) (m_affinity m1) (m_vbo m1) (m_me m1) (m_mhh m1) (m_mlh m1) (m_n m1) (scipy_interp wl kk 0 0)
         (m_Ncc m1) (m_Nvhh m1) (m_Nvlh m1) (m_Nc m1) (m_Nv m1) (m_ni m1) (m_absorption m1) (m_radiative m1))) (map (fun w => 1240 / 10 ^ 9 / w * q) wl)) (map (fun w => 1240 / 10 ^ 9 / w * q) wl)) by (rewrite E2; reflexivity).
      rewrite FB. match goal with |- 0 <= - ?t => assert (t <= 0); [|lra] end. pose proof q_pos as Pq. apply trapz_falling.
      * rewrite !map_length. reflexivity.
      * intros v Hv. apply in_map_iff in Hv as (E & <- & HE). apply in_map_iff in HE as (w & <- & Hw).
        assert (Pw : 0 < w) by (apply (In_nth _ _ 0) in Hw as (j & Hj & <-); now apply PW).
        assert (PE : 0 < 1240 / 10 ^ 9 / w * q) by (apply Rmult_lt_0_compat; [|lra]; apply Rdiv_lt_0_compat; [|lra]; apply Rdiv_lt_0_compat; [lra|]; apply pow_lt; lra).
        set (E := 1240 / 10 ^ 9 / w * q) in *. clearbody E.
        destruct (upper kk) as (B & B0 & HB).
        assert (KP : forall v, 0 <= scipy_interp wl kk 0 0 v).
        { intros v. apply (scipy_interp_bounds wl kk 0 0 v 0 B); auto; try lra. intros j Hj. split; [|apply HB; now apply nth_In]. rewrite LK in Hj. rewrite VK by exact Hj. specialize (PW j Hj).
          assert (0 <= at_ a j) by (apply PA; apply nth_In; lia). unfold Rdiv. repeat apply Rmult_le_pos; try lra. left. now apply Rinv_0_lt_compat. }
        unfold emission_rate, alphaE, alpha. cbn [m_ni m_n m_k]. pose proof h_pos as Ph. pose proof c_pos as Pc. pose proof (KP (PhysConst.h * c / E)) as K1. set (kE := scipy_interp wl kk 0 0 (PhysConst.h * c / E)) in *. clearbody kE.
        assert (S1 : 0 <= / m_ni m1 ^ 2).
        { destruct (Req_dec (m_ni m1) 0) as [Z|Z]; [rewrite Z; replace (0 ^ 2) with 0 by ring; rewrite Rinv_0; lra|]. left. apply Rinv_0_lt_compat. assert (0 < m_ni m1 * m_ni m1) by nra. replace (m_ni m1 ^ 2) with (m_ni m1 * m_ni m1) by ring. lra. }
        assert (S2 : 0 < PhysConst.h ^ 3 * c ^ 2) by (apply Rmult_lt_0_compat; apply pow_lt; lra).
        assert (S3 : 0 < PhysConst.h * c / E) by (apply Rdiv_lt_0_compat; [apply Rmult_lt_0_compat; lra|lra]).
        assert (S4 : 0 <= m_n m1 (1240 / 10 ^ 9 / (E / q)) ^ 2) by (apply pow2_ge_0).
        pose proof (exp_pos (- E / (kb * u_T u))) as S5.
        set (lam := PhysConst.h * c / E) in *. set (D := PhysConst.h ^ 3 * c ^ 2) in *. set (nn := m_n m1 (1240 / 10 ^ 9 / (E / q)) ^ 2) in *. set (ex := exp (- E / (kb * u_T u))) in *.
        set (ni2 := / m_ni m1 ^ 2) in *. set (E2' := E ^ 2). assert (S6 : 0 <= E2') by (apply pow2_ge_0). unfold Rdiv. fold ni2. clearbody lam D nn ex ni2 E2'. clear - S1 S2 S3 S4 S5 S6 K1 PP.
        assert (0 < / D) by (now apply Rinv_0_lt_compat). assert (0 < / lam) by (now apply Rinv_0_lt_compat). set (p := PI) in *. clearbody p.
        repeat apply Rmult_le_pos; lra.
      * intros j Hj. rewrite map_length in Hj. rewrite !at_map by lia. assert (at_ wl j < at_ wl (S j)) by (apply Hx; lia). pose proof (PW j ltac:(lia)). pose proof (PW (S j) ltac:(lia)).
        apply Rmult_le_compat_r; [lra|]. unfold Rdiv. apply Rmult_le_compat_l; [left; apply Rmult_lt_0_compat; [lra|]; apply Rinv_0_lt_compat; apply pow_lt; lra|]. apply Rinv_le_contravar; lra.
Qed.
Definition with_repeat (n : option nat) (u : qw_unit) : qw_unit := Unit (u_layers u) (u_labels u) (u_number u) (u_width u) (u_T u) n.
(** Without the number of repetitions all is worked out, and lost. *)
Theorem C171_repeat_refuted : forall u mode ua wa s wl hp, effective erfc kp8x8 strain (with_repeat None u) mode ua wa s wl hp =
  match effective erfc kp8x8 strain (with_repeat (Some 1%nat) u) mode ua wa s wl hp with Ok _ => Err AttributeError | Err e => Err e end.
Proof.
  intros u mode ua wa s wl hp. unfold effective. change (solve erfc kp8x8 strain (with_repeat None u)) with (solve erfc kp8x8 strain (with_repeat (Some 1%nat) u)).
  destruct (solve _ _ _ _ _ _ _ _ _ _) as [r|]; [|reflexivity]. cbn [bindR]. change (u_layers (with_repeat None u)) with (u_layers (with_repeat (Some 1%nat) u)). change (u_T (with_repeat None u)) with (u_T (with_repeat (Some 1%nat) u)).
  destruct (each _ _ _) as [h1|]; [|reflexivity]. cbn [bindR]. destruct (each _ _ _) as [o|]; [|reflexivity]. reflexivity.
Qed.
Lemma change_absorption {T} (mt : T -> nat) f : (forall t m, m_absorption (f t m) = m_absorption m) -> forall ts M j, m_absorption (fold_left (change mt f) ts M j) = m_absorption (M j).
Proof.
  intros Hf ts. induction ts as [|t ts IH]; intros M j; [reflexivity|]. cbn [fold_left]. rewrite IH. unfold change.
  destruct (Nat.eq_dec j (mt t)) as [->|N]; [rewrite upd_same; apply Hf|now rewrite upd_other].
Qed.
(** Without the absorption there are no effective layers, unless the materials have an absorption
    from before. *)
Theorem C171_absorption_refuted : forall u mode ua s wl hp, u_layers u <> [] -> m_absorption (mats hp (l_material (layers hp (hd 0%nat (u_layers u))))) = None ->
  is_ok (effective erfc kp8x8 strain u mode ua false s wl hp) = false.
Proof.
  intros u mode ua s wl hp NE HN. destruct (effective erfc kp8x8 strain u mode ua false s wl hp) as [[h' out]|] eqn:E; [|reflexivity]. exfalso.
  destruct (effective_inv _ _ _ _ _ _ _ _ _ E) as (r & h1 & n & ES & _ & _ & _ & M1 & _ & _ & _ & EA).
  destruct (EA (hd 0%nat (u_layers u))) as (a & A); [destruct (u_layers u); [contradiction|now left]|]. rewrite M1, change_absorption in A.
  2:{ intros t m. unfold eff_item. destruct (l_eff_gap (layers (fst r) t)), (l_eff_affinity (layers (fst r) t)); reflexivity. }
  unfold solve in ES. destruct (band_edges kp8x8 strain u mode s hp) as [hb|] eqn:EB; [|discriminate ES]. cbn [bindR] in ES.
  assert (EF : fst r = density_of_states erfc u s hb) by (injection ES as <-; reflexivity). rewrite EF in A. unfold density_of_states in A. cbv zeta in A.
  match type of A with m_absorption (mats (fold_left (dos_step _ _ _ ?x ?g ?w) ?t _) _) = _ => rewrite (proj1 (dos_loop erfc u s x g w t hb)) in A end.
  rewrite change_absorption in A by reflexivity.
  destruct (band_edges_inv _ _ _ _ _ _ _ EB) as (e0 & hh0 & lh0 & se & sh & _ & _ & _ & _ & _ & EH).
  match type of EH with _ = fold_left _ ?t _ => destruct (edges_mats (u_T u) t hp) as (K & _) end. rewrite <- EH in K. rewrite K, change_absorption in A by reflexivity. congruence.
Qed.
(** The materials handed over are changed: solving the unit again starts from the effective gap, so
    that the confinement counts twice. *)
Theorem C171_twice_refuted : forall u mode ua wa s wl hp h1 h2 o1 o2 k, NoDup (materials u hp) -> mode <> "kp8x8_bulk"%string -> (forall m, strain m = (0, 0, 0)) ->
  increasing wl -> (2 <= length wl)%nat -> 0 < at_ wl 0 ->
  effective erfc kp8x8 strain u mode ua wa s wl hp = Ok (h1, o1) -> effective erfc kp8x8 strain u mode ua wa s wl h1 = Ok (h2, o2) -> (k < length (u_layers u))%nat ->
  let i := nth k (u_layers u) 0%nat in
  l_gap (layers h1 i) = m_gap (mats hp (l_material (layers hp i))) /\ Some (l_gap (layers h2 i)) = l_eff_gap (layers h1 i).
Proof.
  intros u mode ua wa s wl hp h1 h2 o1 o2 k ND NM HS Hx Hl H0 E1 E2 Hk i.
  assert (G : forall g g' o, NoDup (materials u g) -> effective erfc kp8x8 strain u mode ua wa s wl g = Ok (g', o) ->
    l_gap (layers g' i) = m_gap (mats g (l_material (layers g i))) /\ forall j, l_material (layers g' j) = l_material (layers g j)).
  { clear - NM HS Hk. intros g g' o ND E. destruct (effective_inv _ _ _ _ _ _ _ _ _ E) as (r & h1 & n & ES & _ & _ & L2 & _). rewrite L2.
    split; [|intros j; apply (solve_keeps _ _ _ _ _ _ _ _ ES)].
    unfold solve in ES. destruct (band_edges kp8x8 strain u mode s g) as [hb|] eqn:EB; [|discriminate ES]. cbn [bindR] in ES.
    assert (LD : layers (density_of_states erfc u s hb) = layers hb).
    { unfold density_of_states. cbv zeta. match goal with |- layers (fold_left (dos_step _ _ _ ?a ?b ?c) ?t _) = _ => apply (dos_loop erfc u s a b c t hb) end. }
    assert (LF : layers (fst r) = layers hb).
    { injection ES as <-. destruct wa; [|exact LD]. unfold calculate_absorption. cbv zeta. cbn [fst].
      match goal with |- layers (fold_left (absorption_step _ _ _ _ ?e) ?t ?x) = _ => rewrite (proj2 (abs_loop u ua s wl e t x)) end. exact LD. }
    rewrite LF. destruct (band_edges_inv _ _ _ _ _ _ _ EB) as (e0 & hh0 & lh0 & se & sh & _ & _ & _ & A1 & A2 & EH).
    assert (LW : length (widths_of u g) = length (u_layers u)) by (unfold widths_of; now rewrite map_length).
    assert (LS : length se = length (u_layers u)) by (rewrite (averages_length _ _ _ _ _ A1); exact LW).
    assert (LH : length sh = length (u_layers u)) by (rewrite (averages_length _ _ _ _ _ A2); exact LW).
    destruct (item_of kp8x8 strain u mode g se sh k Hk LS LH) as (IT & FS). cbv zeta in IT, FS. set (ts := combine (u_layers u) _) in *.
    assert (NDL : NoDup (map fst ts)) by (rewrite FS; exact (NoDup_map_inv _ _ ND)).
    destruct (edges_layers (u_T u) ts g NDL) as (K & _). specialize (K _ IT). cbn [fst snd] in K. fold i in K. rewrite EH, K. cbn [set_edges l_gap].
    unfold recalculate_kp. apply String.eqb_neq in NM. rewrite NM. rewrite HS. cbn [fst snd v_gap]. rewrite Rmax_left by lra. ring. }
  destruct (G _ _ _ ND E1) as (G1 & K1). split; [exact G1|].
  assert (ND1 : NoDup (materials u h1)). { unfold materials. rewrite (map_ext _ (fun j => l_material (layers hp j))) by (intros j; apply K1). exact ND. }
  destruct (G _ _ _ ND1 E2) as (G2 & _). rewrite G2, K1.
  destruct (C171_effective_partial _ _ _ _ _ _ _ _ _ E1 ND Hx Hl H0) as (_ & F). destruct (F k Hk) as (F1 & _). symmetry. exact F1.
Qed.
Lemma effective_ok u mode ua wa s wl hp r n : solve erfc kp8x8 strain u mode ua wa s wl hp = Ok r -> u_repeat u = Some n ->
  (forall i, In i (u_layers u) -> exists g a, l_eff_gap (layers (fst r) i) = Some g /\ l_eff_affinity (layers (fst r) i) = Some a) ->
  (forall i, In i (u_layers u) -> exists a, m_absorption (mats (fst r) (l_material (layers (fst r) i))) = Some a) ->
  is_ok (effective erfc kp8x8 strain u mode ua wa s wl hp) = true.
Proof.
  intros ES EN EFF AB. unfold effective. rewrite ES, EN. cbn [bindR]. generalize (fst r) EFF AB. clear. intros g EFF AB.
  assert (OP : forall ids g', (forall i, In i ids -> In i (u_layers u)) -> layers g' = layers g -> is_ok (each (fun i hh => effective_step (u_T u) hh i) ids g') = true).
  { induction ids as [|i ids IH]; intros g' Hi Hg; [reflexivity|]. cbn [each]. unfold effective_step at 1. rewrite Hg. destruct (EFF i (Hi i (or_introl eq_refl))) as (g0 & a0 & G1 & G2). rewrite G1, G2. cbn [bindR].
    apply IH; [intros j Hj; apply Hi; now right|exact Hg]. }
  specialize (OP (u_layers u) g (fun i Hi => Hi) eq_refl). destruct (each (fun i hh => effective_step (u_T u) hh i) (u_layers u) g) as [h1|] eqn:E1; [|discriminate OP]. cbn [bindR].
  destruct (eff_loop _ _ _ _ E1) as (L1 & M1 & _).
  assert (AB1 : forall i, In i (u_layers u) -> exists a, m_absorption (mats h1 (l_material (layers h1 i))) = Some a).
  { intros i Hi. rewrite M1, L1, change_absorption; [now apply AB|]. intros t m. unfold eff_item. destruct (l_eff_gap (layers g t)), (l_eff_affinity (layers g t)); reflexivity. }
  assert (OO : forall ids g' acc, (forall i, In i ids -> exists a, m_absorption (mats g' (l_material (layers g' i))) = Some a) -> is_ok (each (optical_step (u_T u) wl) ids (g', acc)) = true).
  { clear. induction ids as [|i ids IH]; intros g acc HA; [reflexivity|]. cbn [each]. unfold optical_step at 1. cbn [fst snd]. destruct (HA i (or_introl eq_refl)) as (a & A). rewrite A. cbn [bindR].
    apply IH. intros j Hj. cbn [set_mat mats layers]. destruct (Nat.eq_dec (l_material (layers g j)) (l_material (layers g i))) as [E|N]; [rewrite E, upd_same; exists a; reflexivity|rewrite upd_other by exact N; apply HA; now right]. }
  specialize (OO (u_layers u) h1 [] AB1). destruct (each (optical_step (u_T u) wl) (u_layers u) (h1, [])) as [o|]; [|discriminate OO]. reflexivity.
Qed.
End Effective.

(** * Examples *)
(** A well between two barriers, three materials, on ten points. *)
Definition ten : list R := [0; 1; 2; 3; 4; 5; 6; 7; 8; 9].
Definition some_solution : solution :=
  Solution ten [2; 2; 2; 0; 0; 0; 2; 2; 2; 2] [-2; -2; -2; 0; 0; 0; -2; -2; -2; -2] [-2; -2; -2; 0; 0; 0; -2; -2; -2; -2]
           [1] [-1] [-1] [[0; 0; 0; 0; 1; 0; 0; 0; 0; 0]] [[0; 0; 0; 0; 1; 0; 0; 0; 0; 0]] [[0; 0; 0; 0; 1; 0; 0; 0; 0; 0]] [5; 6].
Definition some_unit : qw_unit := Unit [0; 1; 2]%nat [Some "barrier"; Some "well"; Some "barrier"]%string 1 3 300 (Some 2%nat).
Definition some_layer (i : nat) : layer := Layer 3 i (nth i [Some "barrier"; Some "well"; Some "barrier"]%string None) 0 0 None None.
Definition some_heap : heap := Heap some_layer (fun _ => Mat 1 1 0 1 1 1 (fun _ => 3) (fun _ => 1) 0 0 0 0 0 0 None 0).
Definition step_erfc (x : R) : R := if Rlt_dec 0 x then 0 else 1.
Lemma ten_increasing : increasing ten.
Proof. intros i j Hij. unfold ten in *. cbn [length] in Hij. do 10 (destruct i as [|i]; [do 10 (destruct j as [|j]; [cbn; try lia; lra|]); lia|]). lia. Qed.
Lemma ten_averages y : exists a b c, averages ten y 0 [3; 3; 3] = Ok [Some a; Some b; Some c].
Proof.
  cbn [averages]. unfold part. assert (S0 : searchsorted ten 0 = 0%nat) by (unfold ten; cbn [searchsorted]; decide_lt; reflexivity).
  assert (S3 : searchsorted ten (0 + 3) = 3%nat) by (unfold ten; cbn [searchsorted]; decide_lt; reflexivity).
  assert (S6 : searchsorted ten (0 + 3 + 3) = 6%nat) by (unfold ten; cbn [searchsorted]; decide_lt; reflexivity).
  assert (S9 : searchsorted ten (0 + 3 + 3 + 3) = 9%nat) by (unfold ten; cbn [searchsorted]; decide_lt; reflexivity).
  rewrite S0, S3, S6, S9. cbn [slice_end]. set (sy := slice y). clearbody sy.
  unfold slice, ten. cbn [firstn skipn Nat.sub last].
  repeat match goal with |- context [Req_EM_T ?a ?b] => destruct (Req_EM_T a b); [lra|] end. cbn [bindR]. do 3 eexists. reflexivity.
Qed.
Example C168_example : exists hp', band_edges (fun _ => ((0, 0, 0), (0, 0, 0))) (fun _ => (0, 0, 0)) some_unit "no" some_solution some_heap = Ok hp' /\ NoDup (materials some_unit some_heap) /\
  increasing (s_x some_solution) /\ at_ (s_x some_solution) 0 <= 0 /\ (forall k, In k [0; 1; 2]%nat -> exists g a, l_eff_gap (layers hp' k) = Some g /\ l_eff_affinity (layers hp' k) = Some a).
Proof.
  unfold band_edges. cbn [some_solution s_Ee s_Ehh s_Elh s_x s_Ve QwUnitModel.head bindR]. change (widths_of some_unit some_heap) with [3; 3; 3].
  destruct (ten_averages (map (c_shift 1) [2; 2; 2; 0; 0; 0; 2; 2; 2; 2])) as (a & b & c & E1). rewrite E1. cbn [bindR].
  match goal with |- context [averages ten ?y 0 [3; 3; 3]] => destruct (ten_averages y) as (a' & b' & c' & E2); rewrite E2 end. cbn [bindR].
  eexists. split; [reflexivity|]. split; [cbn; repeat constructor; cbn; lia|]. split; [exact ten_increasing|]. split; [cbn; lra|].
  intros k Hk. cbn in Hk. destruct Hk as [<-|[<-|[<-|[]]]]; cbn; do 2 eexists; split; reflexivity.
Qed.
Example C169_example : is_erfc step_erfc /\ NoDup (materials some_unit some_heap) /\ 0 < u_T some_unit /\ (forall w, In w (widths_of some_unit some_heap) -> 0 < w) /\
  (forall p, In p (s_psi_e some_solution ++ s_psi_hh some_solution ++ s_psi_lh some_solution) -> length p = length (s_x some_solution) /\ np_trapz (map (fun v => v ^ 2) p) (s_x some_solution) = 1).
Proof.
  split; [unfold is_erfc, step_erfc; split; [destruct (Rlt_dec 0 0); lra|intros x _; destruct (Rlt_dec 0 x); lra]|]. split; [cbn; repeat constructor; cbn; lia|].
  split; [cbn; lra|]. split; [intros w Hw; cbn in Hw; repeat (destruct Hw as [<-|Hw]; [lra|]); contradiction|].
  intros p Hp. cbn in Hp. repeat (destruct Hp as [<-|Hp]; [split; [reflexivity|cbn; lra]|]). contradiction.
Qed.
Example C171_example : exists h' out, effective step_erfc (fun _ => ((0, 0, 0), (0, 0, 0))) (fun _ => (0, 0, 0)) some_unit "no" false true some_solution [1; 2] some_heap = Ok (h', out) /\
  NoDup (materials some_unit some_heap) /\ increasing [1; 2] /\ length out = 6%nat /\ length (s_alpha some_solution) = 2%nat.
Proof.
  destruct C168_example as (hp' & E & ND & _ & _ & EFF). revert E EFF.
  generalize (fun _ : mat => ((0, 0, 0), (0, 0, 0))) as kp. generalize (fun _ : mat => (0, 0, 0)) as st. intros st kp E EFF.
  assert (LD : layers (density_of_states step_erfc some_unit some_solution hp') = layers hp').
  { unfold density_of_states. cbv zeta. match goal with |- layers (fold_left (dos_step _ _ _ ?a ?b ?c) ?t _) = _ => apply (dos_loop step_erfc some_unit some_solution a b c t hp') end. }
  assert (ES : solve step_erfc kp st some_unit "no" false true some_solution [1; 2] some_heap = Ok (calculate_absorption some_unit false some_solution [1; 2] (density_of_states step_erfc some_unit some_solution hp'))).
  { unfold solve. rewrite E. reflexivity. }
  assert (K := solve_keeps _ _ _ _ _ _ _ _ _ _ _ ES).
  generalize dependent (density_of_states step_erfc some_unit some_solution hp'). intros g LD ES K.
  assert (LA : layers (fst (calculate_absorption some_unit false some_solution [1; 2] g)) = layers hp').
  { rewrite <- LD. unfold calculate_absorption. cbv zeta. cbn [fst]. match goal with |- layers (fold_left (absorption_step _ _ _ _ ?e) ?t ?x) = _ => exact (proj2 (abs_loop some_unit false some_solution [1; 2] e t x)) end. }
  rewrite LA in K.
  assert (NDD : NoDup (materials some_unit g)) by (unfold materials; rewrite LD; rewrite (map_ext _ (fun j => l_material (layers some_heap j))) by (intros j; apply K); exact ND).
  assert (OK : is_ok (effective step_erfc kp st some_unit "no" false true some_solution [1; 2] some_heap) = true).
  { apply (effective_ok _ _ _ _ _ _ _ _ _ _ _ 2 ES eq_refl).
    - intros i Hi. rewrite LA. apply EFF. exact Hi.
    - intros i Hi. rewrite LA, <- LD. apply (In_nth _ _ 0%nat) in Hi as (k & Hk & <-).
      destruct (C170_absorption_partial some_unit false some_solution [1; 2] g k NDD eq_refl Hk ltac:(discriminate) eq_refl) as (a & A & _). exists a. exact A. }
  destruct (effective step_erfc kp st some_unit "no" false true some_solution [1; 2] some_heap) as [[h' out]|x] eqn:EE; [|discriminate OK].
  exists h', out. split; [reflexivity|]. split; [exact ND|].
  assert (I2 : increasing [1; 2]) by (intros i j Hij; cbn [length] in Hij; destruct i as [|[|i]], j as [|[|j]]; cbn; try lia; lra). split; [exact I2|].
  destruct (C171_effective_partial _ _ _ _ _ _ _ _ _ _ _ _ EE ND I2) as ((n & N1 & N2 & _) & _); [cbn; lia|cbn; lra|].
  assert (n = 2%nat) by (cbn in N1; congruence). subst n. split; [exact N2|reflexivity].
Qed.
Example C170_example : NoDup (materials some_unit some_heap) /\ length (u_labels some_unit) = length (u_layers some_unit) /\ nth 1 (u_labels some_unit) None = Some "well"%string /\
  nth 2 (u_labels some_unit) None = Some "barrier"%string /\ 0 < u_width some_unit /\ 0 < l_width (layers some_heap 1) /\ 0 < at_ (s_alpha some_solution) 1 /\ (edge_index some_unit [1; 2]%R some_heap <= 1)%nat.
Proof.
  split; [cbn; repeat constructor; cbn; lia|]. split; [reflexivity|]. split; [reflexivity|]. split; [reflexivity|]. split; [cbn; lra|]. split; [cbn; lra|]. split; [cbn; lra|].
  destruct (C170_edge some_unit [1; 2] some_heap ltac:(discriminate)) as (K & _). cbn [length] in K. lia.
Qed.

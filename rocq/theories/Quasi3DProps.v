(** Properties C121 (element values of the quasi-3D network) and C124 (the scaling of
    the network does not change the equations of the semiconductor nodes). *)
From Coq Require Import Reals String Ascii List Bool ZArith Arith Lra Lia.
From Verif Require Import Common NpModel MatStrModel SpiceModel SpiceProps SpiceProps2 SpiceProps4 Quasi3DModel.
From Coq Require Import List.
Import ListNotations.
Open Scope R_scope.
Open Scope list_scope.

(** * Specification *)

(** The values of the elements that lead from one node to another, in the order of the netlist. *)
Definition between (a b : node) (ls : list qline) : list qvalue :=
  flat_map (fun l => match l with QElement _ a' b' v => if node_eqb a' a && node_eqb b' b then [v] else [] | QPrint _ => [] end) ls.
(** The share of the full illumination on a pixel: none under metal. *)
Definition lit (c : qcell) (x y : nat) : R := if Rle_lt_dec (qc_con c x y) 55 then qc_inj c x y / 255 else 0.
(** A resistance given by the user with a lower and an upper limit, and its default. *)
Definition at_least (r : option R) : R := match r with Some r => Rmax r (/ 10 ^ 16) | None => / 10 ^ 16 end.
Definition at_most (r : option R) : R := match r with Some r => Rmin r (10 ^ 16) | None => 10 ^ 16 end.
Definition given (r : option R) (d : R) : R := match r with Some r => r | None => d end.
(** A cell in which a tunnel junction lies between any two neighbouring junctions, and nowhere else. *)
Fixpoint alternating (js : list qjunction) (ts : list (option R)) : list item :=
  match js, ts with
  | [j], [] => [Junc j]
  | j :: js', r :: ts' => Junc j :: Tun r :: alternating js' ts'
  | _, _ => []
  end.

(** * The elements of the netlist *)

Lemma between_app a b l l' : between a b (l ++ l') = between a b l ++ between a b l'.
Proof. unfold between. apply flat_map_app. Qed.
Lemma between_flat_map {A} a b (f : A -> list qline) l : between a b (flat_map f l) = flat_map (fun i => between a b (f i)) l.
Proof. induction l as [|i l IH]; [reflexivity|]. cbn [flat_map]. now rewrite between_app, IH. Qed.
Lemma flat_map_none {A B} (f : A -> list B) l : (forall i, In i l -> f i = []) -> flat_map f l = [].
Proof. induction l as [|i l IH]; intros H; [reflexivity|]. cbn [flat_map]. rewrite (H i (or_introl eq_refl)). apply IH. intros k Hk. apply H. now right. Qed.
Lemma flat_map_one {B} (f : nat -> list B) n a : (a < n)%nat -> (forall i, (i < n)%nat -> i <> a -> f i = []) -> flat_map f (seq 0 n) = f a.
Proof.
  intros Ha H. replace n with (a + S (n - S a))%nat at 1 by lia. rewrite seq_app, flat_map_app. cbn [plus seq flat_map].
  rewrite (flat_map_none f (seq 0 a)), (flat_map_none f (seq (S a) _)).
  - now rewrite app_nil_r.
  - intros i Hi. apply in_seq in Hi. apply H; lia.
  - intros i Hi. apply in_seq in Hi. apply H; lia.
Qed.
(** The pixel and junction to which a node belongs. *)
Definition owned (n : node) (j x y : nat) : Prop := n = Top j x y \/ n = Bot j x y \/ n = Met j x y.
Lemma owned_neq n j x y j' x' y' : owned n j x y -> (j', x', y') <> (j, x, y) ->
  node_eqb (Top j' x' y') n = false /\ node_eqb (Bot j' x' y') n = false /\ node_eqb (Met j' x' y') n = false /\ node_eqb Ext n = false.
Proof.
  intros O N. assert (E : (j' =? j)%nat && (x' =? x)%nat && (y' =? y)%nat = false).
  { destruct (Nat.eqb_spec j' j), (Nat.eqb_spec x' x), (Nat.eqb_spec y' y); try reflexivity. subst. contradiction. }
  destruct O as [-> |[-> | ->]]; simpl; rewrite E; auto.
Qed.
Lemma between_other a b k n j x y s q xm ym c j' x' y' : owned a j x y -> (j', x', y') <> (j, x, y) ->
  between a b (create_junction k n j' x' y' s q xm ym c) = [].
Proof.
  intros O N. destruct (owned_neq _ _ _ _ _ _ _ O N) as (H1 & H2 & H3 & H4).
  unfold create_junction. rewrite !between_app. unfold between at 1 3. cbn [flat_map]. rewrite H1, H2. cbn [andb app].
  rewrite app_nil_r. destruct (j' =? 0)%nat; [|reflexivity]. destruct k; [reflexivity| |]; unfold between; cbn [flat_map]; rewrite ?H1, ?H3, ?H4; reflexivity.
Qed.
Lemma between_body g a b j x y : owned a j x y -> (j < length (g_isc g))%nat -> (x < g_nx g)%nat -> (y < g_ny g)%nat ->
  between a b (body g) =
  between a b (let k := pixel_kind g x y in
     let sh := if is_metal k then 1 else 0 in
     let metalR := Rmax (g_metal g * sh) (/ 10 ^ 16) + / 10 ^ 16 * (1 - sh) in
     let isc := match k with Normal => map (fun i => g_inj g x y / 255 * i) (g_isc g) | _ => map (fun i => 0 * i) (g_isc g) end in
     create_junction k (length (g_isc g)) j x y (g_s g) (mkQpar isc (g_top g) (g_bot g) (g_rsh g) (g_rser g)) metalR metalR (g_contact g)).
Proof.
  intros O Hj Hx Hy. unfold body. rewrite between_flat_map.
  assert (L : forall k x y, length (match k with Normal => map (fun i => g_inj g x y / 255 * i) (g_isc g) | _ => map (fun i => 0 * i) (g_isc g) end) = length (g_isc g))
    by (intros [] ? ?; apply map_length).
  rewrite (flat_map_one _ _ x Hx).
  - rewrite between_flat_map, (flat_map_one _ _ y Hy).
    + unfold pixel, create_node. cbn [q_isc]. rewrite L, between_flat_map, (flat_map_one _ _ j Hj); [reflexivity|].
      intros i _ N. apply (between_other _ _ _ _ j x y); [exact O|congruence].
    + intros i _ N. unfold pixel, create_node. rewrite between_flat_map. apply flat_map_none. intros j' _.
      apply (between_other _ _ _ _ j x y); [exact O|congruence].
  - intros i _ N. rewrite between_flat_map. apply flat_map_none. intros y' _.
    unfold pixel, create_node. rewrite between_flat_map. apply flat_map_none. intros j' _.
    apply (between_other _ _ _ _ j x y); [exact O|congruence].
Qed.
Lemma eqb_next x : (x =? x + 1)%nat = false /\ (x + 1 =? x)%nat = false.
Proof. split; apply Nat.eqb_neq; lia. Qed.

Lemma junction_values k n j x y s q xm ym c :
  let ls := create_junction k n j x y s q xm ym c in
  between (Bot j x y) (Top j x y) ls = [QNum (nth j (q_isc q) 0)] /\
  between (Top j x y) (Bot j x y) ls = [QModel (t "diode1_" ++ str_nat j); QModel (t "diode2_" ++ str_nat j); QNum (nth j (q_rsh q) 0)] /\
  between (Top j x y) (Top j (x + 1) y) ls = [QNum (nth j (q_top q) 0 / s)] /\
  between (Top j x y) (Top j x (y + 1)) ls = [QNum (nth j (q_top q) 0 * s)] /\
  between (Bot j x y) (Bot j (x + 1) y) ls = [QNum (nth j (q_bot q) 0 / s)] /\
  between (Bot j x y) (Bot j x (y + 1)) ls = [QNum (nth j (q_bot q) 0 * s)] /\
  ((j + 1 < n)%nat -> between (Bot j x y) (Top (j + 1) x y) ls = [QNum (nth j (q_rser q) 0)]) /\
  ((j + 1 = n)%nat -> between (Bot j x y) Ground ls = [QNum (nth j (q_rser q) 0)]) /\
  (j = 0%nat -> between (Top 0 x y) (Met 0 x y) ls = if is_metal k then [QNum c] else []).
Proof.
  destruct (eqb_next x) as [X1 X2]. destruct (eqb_next y) as [Y1 Y2]. destruct (eqb_next j) as [J1 J2].
  cbv zeta. unfold create_junction.
  destruct (Nat.eqb_spec (j + 1) n) as [En|En]; destruct (Nat.eqb_spec j 0) as [E0|E0]; destruct k;
    cbn [app is_metal]; unfold between; cbn [flat_map node_eqb andb];
    rewrite ?Nat.eqb_refl, ?X1, ?X2, ?Y1, ?Y2, ?J1, ?J2; cbn [andb app];
    repeat split; intros; subst; try lia; try reflexivity;
    rewrite ?Nat.eqb_refl; reflexivity.
Qed.

(** * The arrays *)

Lemma put_spec i v : forall l, (i < length l)%nat -> exists l', put i v l = Ok l' /\ length l' = length l /\
  forall k, nth k l' 0 = if (k =? i)%nat then v else nth k l 0.
Proof.
  induction i as [|i IH]; intros [|a l] H; cbn [length] in H; try lia.
  - exists (v :: l). split; [reflexivity|]. split; [reflexivity|]. intros [|k]; reflexivity.
  - destruct (IH l ltac:(lia)) as (l' & E & L & F). cbn [put]. rewrite E. cbn [bindR]. exists (a :: l'). split; [reflexivity|].
    split; [cbn [length]; now rewrite L|]. intros [|k]; [reflexivity|]. cbn [nth Nat.eqb]. apply F.
Qed.
Lemma put_error i v : forall l, (length l <= i)%nat -> put i v l = Err IndexError.
Proof.
  induction i as [|i IH]; intros [|a l] H; cbn [length] in H; try lia; [reflexivity..|]. cbn [put]. now rewrite IH by lia.
Qed.
Lemma put_tunnels_spec ts : forall i l, (i + length ts <= length l)%nat ->
  exists l', put_tunnels ts i l = Ok l' /\ length l' = length l /\
  forall k, nth k l' 0 = if (i <=? k)%nat && (k <? i + length ts)%nat then at_least (nth (k - i) ts None) else nth k l 0.
Proof.
  induction ts as [|r ts IH]; intros i l H; cbn [length] in H.
  - exists l. split; [reflexivity|]. split; [reflexivity|]. intros k. destruct (Nat.leb_spec i k); [|reflexivity].
    cbn [length]. destruct (Nat.ltb_spec k (i + 0)); [lia|reflexivity].
  - cbn [put_tunnels]. destruct (put_spec i (attr_or r (fun x => Rmax x tiny) tiny) l ltac:(lia)) as (l1 & -> & L1 & F1). cbn [bindR].
    destruct (IH (S i) l1 ltac:(lia)) as (l' & E & L & F). exists l'. split; [assumption|]. split; [lia|]. intros k. rewrite F, F1.
    cbn [length]. destruct (Nat.leb_spec (S i) k); destruct (Nat.leb_spec i k); cbn [andb]; try lia.
    + replace (k - i)%nat with (S (k - S i)) by lia. cbn [nth].
      destruct (Nat.ltb_spec k (S i + length ts)); destruct (Nat.ltb_spec k (i + S (length ts))); try lia; [reflexivity|].
      destruct (Nat.eqb_spec k i); [lia|reflexivity].
    + replace k with i by lia. rewrite Nat.eqb_refl, Nat.sub_diag. destruct (Nat.ltb_spec i (i + S (length ts))); [|lia]. reflexivity.
    + destruct (Nat.eqb_spec k i); [lia|reflexivity].
Qed.
Lemma put_tunnels_error ts : forall i l, (i <= length l)%nat -> (length l < i + length ts)%nat -> put_tunnels ts i l = Err IndexError.
Proof.
  induction ts as [|r ts IH]; intros i l H1 H2; cbn [length] in H2; [lia|]. cbn [put_tunnels].
  destruct (Nat.eq_dec i (length l)) as [E|N].
  - now rewrite put_error by lia.
  - destruct (put_spec i (attr_or r (fun x => Rmax x tiny) tiny) l ltac:(lia)) as (l1 & -> & L1 & _). cbn [bindR]. apply IH; lia.
Qed.
Lemma series_spec n ts b : (0 < n)%nat -> (length ts <= n)%nat -> exists rs, series_of n ts b = Ok rs /\ length rs = n /\
  forall k, (k < n)%nat -> nth k rs 0 = if (k + 1 =? n)%nat then Rmax b (/ 10 ^ 16) else at_least (nth k ts None).
Proof.
  intros Hn Ht. unfold series_of.
  destruct (put_tunnels_spec ts 0 (repeat tiny n) ltac:(rewrite repeat_length; lia)) as (l & -> & L & F). cbn [bindR].
  rewrite repeat_length in L. destruct n as [|m]; [lia|].
  destruct (put_spec m (Rmax b tiny) l ltac:(lia)) as (rs & -> & Lr & Fr). exists rs. split; [reflexivity|]. split; [lia|].
  intros k Hk. rewrite Fr, F. replace (k + 1 =? S m)%nat with (k =? m)%nat by (destruct (Nat.eqb_spec k m), (Nat.eqb_spec (k + 1) (S m)); lia || reflexivity).
  destruct (k =? m)%nat; [reflexivity|]. cbn [Nat.leb andb plus]. rewrite Nat.sub_0_r.
  destruct (Nat.ltb_spec k (length ts)) as [I|I]; [reflexivity|]. rewrite (nth_overflow ts) by assumption.
  cbn [at_least]. rewrite (nth_indep _ 0 tiny) by now rewrite repeat_length. now rewrite nth_repeat.
Qed.
Lemma series_ok n ts b rs : series_of n ts b = Ok rs -> (0 < n)%nat /\ (length ts <= n)%nat.
Proof.
  unfold series_of. destruct (Nat.le_gt_cases (length ts) n) as [L|L].
  - destruct (put_tunnels_spec ts 0 (repeat tiny n) ltac:(rewrite repeat_length; lia)) as (l & -> & _). cbn [bindR].
    destruct n; [discriminate|]. lia.
  - rewrite put_tunnels_error by (rewrite ?repeat_length; lia). discriminate.
Qed.
Lemma diodes_spec : forall js ds, diodes_of js = Ok ds -> length ds = length js /\
  forall k j, nth_error js k = Some j -> exists d, nth_error ds k = Some d /\
    qj_jsc j = Some (qd_isc d) /\ qj_j01 j = Some (qd_i01 d) /\ qj_j02 j = Some (qd_i02 d) /\ qj_eg j = Some (qd_eg d).
Proof.
  induction js as [|j js IH]; intros ds H; cbn [diodes_of] in H.
  - injection H as <-. split; [reflexivity|]. intros [|k] j0 E; discriminate E.
  - destruct (diode_of j) as [d|] eqn:Ed; [|discriminate]. cbn [bindR] in H. destruct (diodes_of js) as [ds'|]; [|discriminate].
    injection H as <-. destruct (IH ds' eq_refl) as [L F]. split; [cbn [length]; now rewrite L|].
    intros [|k] j0 E; cbn [nth_error] in E |- *; [|now apply F]. injection E as <-. exists d. split; [reflexivity|].
    revert Ed. unfold diode_of. destruct (qj_jsc j), (qj_j01 j), (qj_j02 j), (qj_eg j); try discriminate. intros [= <-]. auto.
Qed.
Lemma nth_map_error {A} (f : A -> R) l k a : nth_error l k = Some a -> nth k (map f l) 0 = f a.
Proof. intros E. apply nth_error_nth. now rewrite nth_error_map, E. Qed.
Lemma scaling_value ds i0 : (exists d ds', ds = d :: ds' /\ qd_i01 d = i0) -> 0 < i0 -> scaling ds = / sqrt i0 /\ 0 < / sqrt i0.
Proof.
  intros (d & ds' & -> & E) P. cbn [scaling]. rewrite E. unfold Rdiv. rewrite Rmult_1_l.
  split; [|apply Rinv_0_lt_compat, sqrt_lt_R0; assumption]. apply sqrt_inv.
Qed.

(** * C121 *)

(** C121: with the pixel area A = Lx Ly and the scaling g = 1/sqrt(j01 of the first
    junction), at every pixel and for every junction the netlist holds exactly these
    elements between the two nodes of the junction: a source that drives from the bottom
    to the top node g times the photocurrent density times A times the illumination of
    the pixel (nothing under metal), and, from top to bottom, the two diodes and the
    shunt resistance (at most 1e16) divided by A g; the diodes have g A times the
    saturation current densities.  Sheet resistances (at least 1e-16) to the next pixel
    in x are multiplied by Lx / Ly, in y by Ly / Lx, and divided by g.  A junction is
    joined to the next one, or to ground, by one series resistance divided by A g. *)
Theorem C121_elements : forall c ms ls j x y jn i0,
  quasi3d c = Ok (ms, ls) -> nth_error (junctions (qc_items c)) j = Some jn ->
  (x < qc_nx c)%nat -> (y < qc_ny c)%nat -> 0 < qc_lx c -> 0 < qc_ly c ->
  (exists j0 js, junctions (qc_items c) = j0 :: js /\ qj_j01 j0 = Some i0) -> 0 < i0 ->
  let A := qc_lx c * qc_ly c in let g := / sqrt i0 in let n := length (junctions (qc_items c)) in
  (exists jsc i01 i02 eg, qj_jsc jn = Some jsc /\ qj_j01 jn = Some i01 /\ qj_j02 jn = Some i02 /\ qj_eg jn = Some eg /\
     between (Bot j x y) (Top j x y) ls = [QNum (g * (lit c x y * jsc * A))] /\
     In (t "diode1_" ++ str_nat j, (g * (i01 * A), given (qj_n1 jn) 1, eg)) ms /\
     In (t "diode2_" ++ str_nat j, (g * (i02 * A), given (qj_n2 jn) 2, eg)) ms) /\
  between (Top j x y) (Bot j x y) ls =
    [QModel (t "diode1_" ++ str_nat j); QModel (t "diode2_" ++ str_nat j); QNum (at_most (qj_rsh jn) / A / g)] /\
  between (Top j x y) (Top j (x + 1) y) ls = [QNum (at_least (qj_top jn) * (qc_lx c / qc_ly c) / g)] /\
  between (Top j x y) (Top j x (y + 1)) ls = [QNum (at_least (qj_top jn) * (qc_ly c / qc_lx c) / g)] /\
  between (Bot j x y) (Bot j (x + 1) y) ls = [QNum (at_least (qj_bot jn) * (qc_lx c / qc_ly c) / g)] /\
  between (Bot j x y) (Bot j x (y + 1)) ls = [QNum (at_least (qj_bot jn) * (qc_ly c / qc_lx c) / g)] /\
  ((j + 1 < n)%nat -> between (Bot j x y) (Top (j + 1) x y) ls = [QNum (at_least (nth j (tunnels (qc_items c)) None) / A / g)]) /\
  ((j + 1 = n)%nat -> between (Bot j x y) Ground ls = [QNum (Rmax (qc_back c) (/ 10 ^ 16) / A / g)]) /\
  (j = 0%nat -> between (Top 0 x y) (Met 0 x y) ls = if Rle_lt_dec (qc_con c x y) 55 then [] else [QNum (qc_contact c / A / g)]).
Proof.
  intros c ms ls j x y jn i0 H Hj Hx Hy Lx Ly (j0 & js & Ej & E0) P A g n.
  unfold quasi3d in H. destruct (diodes_of (junctions (qc_items c))) as [ds|] eqn:Ed; [|discriminate]. cbn [bindR] in H.
  destruct (series_of _ _ _) as [rs|] eqn:Es; [|discriminate]. cbn [bindR] in H.
  destruct (diodes_spec _ _ Ed) as [Ld Fd].
  assert (Sc : scaling ds = g /\ 0 < g).
  { apply scaling_value; [|assumption]. destruct ds as [|d ds']; [rewrite Ej in Ld; discriminate|]. exists d, ds'. split; [reflexivity|].
    destruct (Fd 0%nat j0) as (d' & E' & _ & E01 & _); [now rewrite Ej|]. cbn in E'. injection E' as <-. congruence. }
  destruct Sc as [Sc Pg]. rewrite Sc in H. injection H as <- <-.
  destruct (series_ok _ _ _ _ Es) as [N0 Nt]. destruct (series_spec _ _ (qc_back c) N0 Nt) as (rs' & Es' & Lr & Fr).
  rewrite Es in Es'. injection Es' as <-. fold n in Lr, Fr, N0, Nt.
  destruct (Fd j jn Hj) as (d & Edj & Q1 & Q2 & Q3 & Q4).
  assert (Jn : (j < n)%nat) by (apply nth_error_Some; congruence).
  set (gr := scaled g c ds rs).
  assert (Ln : length (g_isc gr) = n) by (unfold gr; cbn [g_isc scaled]; now rewrite map_length, Ld).
  assert (B : forall a b, owned a j x y -> between a b (body gr) = between a b
     (let k := pixel_kind gr x y in
     let sh := if is_metal k then 1 else 0 in
     let metalR := Rmax (g_metal gr * sh) (/ 10 ^ 16) + / 10 ^ 16 * (1 - sh) in
     let isc := match k with Normal => map (fun i => g_inj gr x y / 255 * i) (g_isc gr) | _ => map (fun i => 0 * i) (g_isc gr) end in
     create_junction k (length (g_isc gr)) j x y (g_s gr) (mkQpar isc (g_top gr) (g_bot gr) (g_rsh gr) (g_rser gr)) metalR metalR (g_contact gr)))
    by (intros a b O; apply between_body; [assumption|lia|assumption|assumption]).
  cbv zeta in B.
  match type of B with forall a b, _ -> _ = between a b (create_junction ?k ?n ?j ?x ?y ?s ?q ?xm ?ym ?c) =>
    pose proof (junction_values k n j x y s q xm ym c) as V end.
  cbv zeta in V. rewrite Ln in V, B. destruct V as (V1 & V2 & V3 & V4 & V5 & V6 & V7 & V8 & V9).
  assert (OT : owned (Top j x y) j x y) by now left. assert (OB : owned (Bot j x y) j x y) by (right; now left).
  cbn [q_isc q_top q_bot q_rsh q_rser] in *.
  assert (Top' : nth j (g_top gr) 0 = at_least (qj_top jn) / g).
  { unfold gr; cbn [g_top scaled]. rewrite (nth_map_error _ _ _ _ Hj). unfold q_sheet_top, attr_or, at_least, tiny. now destruct (qj_top jn). }
  assert (Bot' : nth j (g_bot gr) 0 = at_least (qj_bot jn) / g).
  { unfold gr; cbn [g_bot scaled]. rewrite (nth_map_error _ _ _ _ Hj). unfold q_sheet_bot, attr_or, at_least, tiny. now destruct (qj_bot jn). }
  assert (Ser : nth j (g_rser gr) 0 = nth j rs 0 / A / g).
  { unfold gr; cbn [g_rser scaled]. rewrite (nth_indep _ 0 ((fun r => r / (qc_lx c * qc_ly c) / g) 0)) by (rewrite map_length; lia).
    now rewrite (map_nth (fun r => r / (qc_lx c * qc_ly c) / g)). }
  assert (S1 : g_s gr = qc_ly c / qc_lx c) by reflexivity.
  assert (Ppos : 0 < qc_ly c / qc_lx c) by (apply Rdiv_lt_0_compat; assumption).
  assert (K : pixel_kind gr x y = Normal /\ lit c x y = qc_inj c x y / 255 /\ (exists p, Rle_lt_dec (qc_con c x y) 55 = left p) \/
              pixel_kind gr x y <> Normal /\ lit c x y = 0 /\ (exists p, Rle_lt_dec (qc_con c x y) 55 = right p)).
  { unfold pixel_kind, lit. change (g_con gr x y) with (qc_con c x y). destruct (Rle_lt_dec (qc_con c x y) 55) as [p|p]; [left; eauto|].
    right. split; [|eauto]. destruct (Rle_lt_dec (qc_con c x y) 200); discriminate. }
  split; [exists (qd_isc d), (qd_i01 d), (qd_i02 d), (qd_eg d)|].
  - do 4 (split; [assumption|]). split; [|].
    + rewrite B by exact OB. rewrite V1. do 2 f_equal.
      assert (I : nth_error (g_isc gr) j = Some (qd_isc d * A * g)) by (unfold gr; cbn [g_isc scaled]; now rewrite nth_error_map, Edj).
      destruct K as [(K1 & K2 & _)|(K1 & K2 & _)]; rewrite K2.
      * rewrite K1. rewrite (nth_map_error _ _ _ _ I). change (g_inj gr x y) with (qc_inj c x y). ring.
      * replace (match pixel_kind gr x y with Normal => _ | _ => map (fun i => 0 * i) (g_isc gr) end) with (map (fun i => 0 * i) (g_isc gr))
          by (destruct (pixel_kind gr x y); [contradiction|reflexivity|reflexivity]).
        rewrite (nth_map_error _ _ _ _ I). ring.
    + unfold models.
      assert (I : In (j, (jn, d)) (combine (seq 0 (length ds)) (combine (junctions (qc_items c)) ds))).
      { apply nth_error_In with (n := j). clear - Hj Edj Ld.
        assert (G : forall l (m : list (qjunction * qdiode)) s k p, nth_error m k = Some p -> l = length m -> nth_error (combine (seq s l) m) k = Some ((s + k)%nat, p)).
        { intros l m. revert l. induction m as [|q m IH]; intros l s [|k] p E ->; try discriminate; cbn in *.
          - injection E as <-. now rewrite Nat.add_0_r.
          - rewrite (IH _ (S s) k p E eq_refl). do 2 f_equal. lia. }
        apply (G _ _ 0%nat j).
        - clear G. revert j ds Hj Edj Ld. induction (junctions (qc_items c)) as [|a l IH]; intros [|j] [|e ds] H1 H2 H3; try discriminate; cbn in *.
          + congruence. + apply IH; [assumption|assumption|lia].
        - rewrite combine_length. lia. }
      replace (given (qj_n1 jn) 1) with (q_n1 jn) by (unfold given, q_n1, attr_or; now destruct (qj_n1 jn)).
      replace (given (qj_n2 jn) 2) with (q_n2 jn) by (unfold given, q_n2, attr_or; now destruct (qj_n2 jn)).
      replace (g * (qd_i01 d * A)) with (qd_i01 d * (qc_lx c * qc_ly c) * g) by (unfold A; ring).
      replace (g * (qd_i02 d * A)) with (qd_i02 d * (qc_lx c * qc_ly c) * g) by (unfold A; ring).
      split; apply in_flat_map; eexists; (split; [exact I|]); [left|right; left]; reflexivity.
  - rewrite !B by assumption. rewrite V2, V3, V4, V5, V6, Top', Bot', S1.
    assert (Rs : nth j (g_rsh gr) 0 = at_most (qj_rsh jn) / A / g).
    { unfold gr; cbn [g_rsh scaled]. rewrite (nth_map_error _ _ _ _ Hj). unfold q_shunt, attr_or, at_most. now destruct (qj_rsh jn). }
    rewrite Rs. rewrite S1 in V7, V8. split; [reflexivity|].
    split; [do 2 f_equal; field; repeat split; lra|]. split; [do 2 f_equal; field; repeat split; lra|].
    split; [do 2 f_equal; field; repeat split; lra|]. split; [do 2 f_equal; field; repeat split; lra|].
    split; [|split].
    + intros L. rewrite ?B by exact OB. rewrite V7 by assumption. rewrite Ser, (Fr j Jn). destruct (Nat.eqb_spec (j + 1) n); [lia|reflexivity].
    + intros L. rewrite ?B by exact OB. rewrite V8 by assumption. rewrite Ser, (Fr j Jn). destruct (Nat.eqb_spec (j + 1) n); [reflexivity|lia].
    + intros ->. rewrite B by exact OT. rewrite V9 by reflexivity.
      destruct K as [(K1 & _ & p & Kp)|(K1 & _ & p & Kp)]; rewrite Kp; [now rewrite K1|].
      destruct (pixel_kind gr x y); [contradiction|reflexivity|reflexivity].
Qed.
Print Assumptions C121_elements.

(** A two-junction cell, 2 um by 1 um pixels, one lit pixel and one contact pixel. *)
Definition ex_j : qjunction := mkQJ (Some 1) None (Some 5) (Some 3) None (Some 8) (Some 4) (Some 2) (Some 1).
Definition ex_c (its : list item) : qcell := mkQC its 7 6 1 1 2 1 2 1 (fun _ _ => 255) (fun x _ => if (x =? 0)%nat then 0 else 255).
Definition ex_items : list item := [Junc ex_j; Tun (Some 9); Junc ex_j].
Example C121_elements_example : exists ms ls,
  quasi3d (ex_c ex_items) = Ok (ms, ls) /\ nth_error (junctions (qc_items (ex_c ex_items))) 0 = Some ex_j /\
  between (Bot 0 0 0) (Top 0 0 0) ls = [QNum (/ sqrt 4 * (lit (ex_c ex_items) 0 0 * 8 * (2 * 1)))] /\
  lit (ex_c ex_items) 0 0 = 1 /\ lit (ex_c ex_items) 1 0 = 0.
Proof.
  assert (E : exists p, quasi3d (ex_c ex_items) = Ok p).
  { unfold quasi3d. simpl junctions. simpl tunnels. cbn [diodes_of diode_of ex_j qj_jsc qj_j01 qj_j02 qj_eg bindR].
    unfold series_of. cbn. eexists. reflexivity. }
  destruct E as ([ms ls] & E). exists ms, ls. split; [assumption|]. split; [reflexivity|].
  destruct (C121_elements (ex_c ex_items) ms ls 0 0 0 ex_j 4 E) as ((jsc & i01 & i02 & eg & H1 & _ & _ & _ & H2 & _) & _);
    [reflexivity|simpl; lia|simpl; lia|simpl; lra|simpl; lra|now exists ex_j, [ex_j]|lra|].
  injection H1 as <-. split; [exact H2|]. unfold lit. cbn [ex_c qc_con qc_inj Nat.eqb].
  destruct (Rle_lt_dec 0 55); [|lra]. destruct (Rle_lt_dec 255 55); [lra|]. split; lra.
Qed.

(** A cell in which tunnel junctions separate the junctions gets the resistance of each
    tunnel junction between the two junctions it separates. *)
Theorem C121_tunnels : forall js ts c ms ls j x y i0,
  qc_items c = alternating js ts -> length js = S (length ts) -> quasi3d c = Ok (ms, ls) ->
  (j + 1 < length js)%nat -> (x < qc_nx c)%nat -> (y < qc_ny c)%nat -> 0 < qc_lx c -> 0 < qc_ly c ->
  (exists j0 js', js = j0 :: js' /\ qj_j01 j0 = Some i0) -> 0 < i0 ->
  between (Bot j x y) (Top (j + 1) x y) ls = [QNum (at_least (nth j ts None) / (qc_lx c * qc_ly c) / (/ sqrt i0))].
Proof.
  intros js ts c ms ls j x y i0 Hc L H Hj Hx Hy Lx Ly E0 P.
  assert (G : forall js ts, length js = S (length ts) -> junctions (alternating js ts) = js /\ tunnels (alternating js ts) = ts).
  { clear. intros js. induction js as [|j js IH]; intros ts L; [discriminate|]. destruct ts as [|r ts].
    - destruct js; [split; reflexivity|discriminate].
    - destruct (IH ts ltac:(simpl in L; lia)) as [H1 H2]. cbn [alternating]. destruct js as [|j' js']; [discriminate|].
      split; [change (j :: junctions (alternating (j' :: js') ts) = j :: j' :: js'); now rewrite H1|].
      change (r :: tunnels (alternating (j' :: js') ts) = r :: ts). now rewrite H2. }
  destruct (G js ts L) as [G1 G2]. rewrite <- Hc in G1, G2.
  destruct (nth_error (junctions (qc_items c)) j) as [jn|] eqn:Ej; [|apply nth_error_None in Ej; rewrite G1 in Ej; lia].
  destruct (C121_elements c ms ls j x y jn i0 H Ej Hx Hy Lx Ly ltac:(now rewrite G1) P) as (_ & _ & _ & _ & _ & _ & T & _).
  rewrite T by (rewrite G1; assumption). now rewrite G2.
Qed.
Example C121_tunnels_example : ex_items = alternating [ex_j; ex_j] [Some 9] /\ length [ex_j; ex_j] = S (length [Some 9]).
Proof. split; reflexivity. Qed.

(** Otherwise the resistances are placed by counting: with no tunnel junction between
    the first two of three junctions, the one between the second and the third is put
    below the first. *)
Theorem C121_tunnel_refuted : exists c ms ls,
  qc_items c = [Junc ex_j; Junc ex_j; Tun (Some 9); Junc ex_j] /\ quasi3d c = Ok (ms, ls) /\
  between (Bot 0 0 0) (Top 1 0 0) ls = [QNum (9 / (2 * 1) / (/ sqrt 4))] /\
  between (Bot 1 0 0) (Top 2 0 0) ls = [QNum (/ 10 ^ 16 / (2 * 1) / (/ sqrt 4))].
Proof.
  set (its := [Junc ex_j; Junc ex_j; Tun (Some 9); Junc ex_j]).
  assert (E : exists p, quasi3d (ex_c its) = Ok p).
  { unfold quasi3d. simpl junctions. simpl tunnels. cbn [diodes_of diode_of ex_j qj_jsc qj_j01 qj_j02 qj_eg bindR].
    unfold series_of. cbn. eexists. reflexivity. }
  destruct E as ([ms ls] & E). exists (ex_c its), ms, ls. split; [reflexivity|]. split; [assumption|]. split.
  - destruct (C121_elements (ex_c its) ms ls 0 0 0 ex_j 4 E) as (_ & _ & _ & _ & _ & _ & T & _);
      [reflexivity|simpl; lia|simpl; lia|simpl; lra|simpl; lra|now exists ex_j, [ex_j; ex_j]|lra|].
    change (0 + 1)%nat with 1%nat in T. rewrite T by (simpl; lia). change (nth 0 (tunnels (qc_items (ex_c its))) None) with (Some 9). cbn [at_least].
    rewrite Rmax_left; [reflexivity|]. assert (0 < 10 ^ 16) by (apply pow_lt; lra). assert (1 <= 10 ^ 16) by (apply pow_R1_Rle; lra).
    assert (/ 10 ^ 16 <= 1) by (rewrite <- Rinv_1; apply Rinv_le_contravar; lra). lra.
  - destruct (C121_elements (ex_c its) ms ls 1 0 0 ex_j 4 E) as (_ & _ & _ & _ & _ & _ & T & _);
      [reflexivity|simpl; lia|simpl; lia|simpl; lra|simpl; lra|now exists ex_j, [ex_j; ex_j]|lra|].
    change (1 + 1)%nat with 2%nat in T. rewrite T by (simpl; lia). reflexivity.
Qed.

(** The solver raises AttributeError exactly when a junction lacks a short-circuit
    current, a saturation current or a gap; otherwise more tunnel junctions than
    junctions (or no junction at all) end in IndexError, and everything else works. *)
Definition complete (j : qjunction) : Prop := qj_jsc j <> None /\ qj_j01 j <> None /\ qj_j02 j <> None /\ qj_eg j <> None.
Theorem C121_errors : forall c,
  ((exists j, In j (junctions (qc_items c)) /\ ~ complete j) -> quasi3d c = Err AttributeError) /\
  ((forall j, In j (junctions (qc_items c)) -> complete j) ->
   if (Nat.eqb (length (junctions (qc_items c))) 0 || Nat.ltb (length (junctions (qc_items c))) (length (tunnels (qc_items c))))%bool
   then quasi3d c = Err IndexError else exists p, quasi3d c = Ok p).
Proof.
  intros c. unfold quasi3d. split.
  - intros (j & I & N). assert (E : diodes_of (junctions (qc_items c)) = Err AttributeError); [|now rewrite E].
    induction (junctions (qc_items c)) as [|a l IH]; [destruct I|]. cbn [diodes_of].
    destruct (diode_of a) as [d|e] eqn:Ea.
    + cbn [bindR]. destruct I as [->|I]; [|now rewrite (IH I)]. exfalso. apply N. revert Ea. unfold diode_of, complete.
      destruct (qj_jsc j), (qj_j01 j), (qj_j02 j), (qj_eg j); try discriminate. intros _. repeat split; discriminate.
    + cbn [bindR]. revert Ea. unfold diode_of. destruct (qj_jsc a), (qj_j01 a), (qj_j02 a), (qj_eg a); congruence.
  - intros H. assert (E : exists ds, diodes_of (junctions (qc_items c)) = Ok ds).
    { induction (junctions (qc_items c)) as [|a l IH]; [eexists; reflexivity|]. cbn [diodes_of].
      destruct (H a (or_introl eq_refl)) as (H1 & H2 & H3 & H4). unfold diode_of.
      destruct (qj_jsc a), (qj_j01 a), (qj_j02 a), (qj_eg a); try contradiction. cbn [bindR].
      destruct IH as (ds & ->); [intros j I; apply H; now right|]. eexists. reflexivity. }
    destruct E as (ds & ->). cbn [bindR].
    destruct (Nat.eqb_spec (length (junctions (qc_items c))) 0) as [Z|Z]; cbn [orb].
    + rewrite Z. unfold series_of. cbn [repeat]. destruct (tunnels (qc_items c)); reflexivity.
    + destruct (Nat.ltb_spec (length (junctions (qc_items c))) (length (tunnels (qc_items c)))) as [L|L].
      * unfold series_of. rewrite put_tunnels_error by (rewrite ?repeat_length; lia). reflexivity.
      * destruct (series_spec _ _ (qc_back c) (proj1 (Nat.neq_0_lt_0 _) Z) L) as (rs & -> & _). eexists. reflexivity.
Qed.
Example C121_errors_example :
  complete ex_j /\ ~ complete (mkQJ None None None None None None (Some 1) (Some 1) (Some 1)) /\
  quasi3d (ex_c [Junc ex_j; Tun None; Tun None]) = Err IndexError.
Proof.
  split; [repeat split; discriminate|]. split; [intros (H & _); now apply H|].
  destruct (C121_errors (ex_c [Junc ex_j; Tun None; Tun None])) as [_ H]. apply H.
  intros j [<-|[]]. repeat split; discriminate.
Qed.

(** * C124 *)

(** The current through an element from its first node to its second, as SPICE reads
    the line: the first letter of the name decides.  [D] is the law of the diode models. *)
Definition flow (D : text -> R -> R) (V : node -> R) (l : qline) : R :=
  match l with
  | QElement (c :: _) a b v =>
      match v with
      | QNum r => if Ascii.eqb c "i" then r else if Ascii.eqb c "R" then (V a - V b) / r else 0
      | QModel m => if Ascii.eqb c "d" then D m (V a - V b) else 0
      end
  | _ => 0
  end.
(** The current that leaves a node through an element, and through a whole netlist. *)
Definition share (D : text -> R -> R) (V : node -> R) (n : node) (l : qline) : R :=
  match l with
  | QElement _ a b _ => (if node_eqb a n then flow D V l else 0) - (if node_eqb b n then flow D V l else 0)
  | QPrint _ => 0
  end.
Fixpoint leaving (D : text -> R -> R) (V : node -> R) (n : node) (ls : list qline) : R :=
  match ls with [] => 0 | l :: ls' => share D V n l + leaving D V n ls' end.
(** The diode law of the models of a header at thermal voltage [vt]. *)
Definition law (vt : R) (ms : list (text * (R * R * R))) (m : text) (v : R) : R :=
  match find (fun p => if list_eq_dec ascii_dec (fst p) m then true else false) ms with
  | Some (_, (i, n, _)) => i * (exp (v / (n * vt)) - 1)
  | None => 0
  end.

Definition scales (g : R) (D D' : text -> R -> R) (V : node -> R) (n : node) (l l' : qline) : Prop :=
  share D V n l = g * share D' V n l'.
Lemma leaving_scale g D D' V n ls ls' : Forall2 (scales g D D' V n) ls ls' -> leaving D V n ls = g * leaving D' V n ls'.
Proof. induction 1 as [|l l' ls ls' H _ IH]; cbn [leaving]; [ring|]. rewrite H, IH. ring. Qed.
Lemma Forall2_flat_map {A B C} (P : B -> C -> Prop) (f : A -> list B) (h : A -> list C) l :
  (forall a, Forall2 P (f a) (h a)) -> Forall2 P (flat_map f l) (flat_map h l).
Proof. intros H. induction l as [|a l IH]; cbn [flat_map]; [constructor|]. apply Forall2_app; [apply H|exact IH]. Qed.
Lemma nth_scale {A} (f h : A -> R) k l j : (forall a, f a = k * h a) -> nth j (map f l) 0 = k * nth j (map h l) 0.
Proof. intros H. revert j. induction l as [|a l IH]; intros [|j]; cbn [map nth]; try ring; [apply H|apply IH]. Qed.
Lemma law_scale g vt c ds m v : law vt (models g c ds) m v = g * law vt (models 1 c ds) m v.
Proof.
  unfold law, models. induction (combine _ _) as [|[i [j d]] l IH]; cbn [flat_map find]; [ring|].
  cbn [find app fst]. destruct (list_eq_dec ascii_dec (t "diode1_" ++ str_nat i) m); [ring|].
  destruct (list_eq_dec ascii_dec (t "diode2_" ++ str_nat i) m); [ring|]. exact IH.
Qed.

Lemma scales_res g D D' V n nm a b r r' : / r = g * / r' -> scales g D D' V n (QElement (t "R" ++ nm) a b (QNum r)) (QElement (t "R" ++ nm) a b (QNum r')).
Proof. intros H. unfold scales, share, flow. cbn. unfold Rdiv. rewrite H. destruct (node_eqb a n), (node_eqb b n); ring. Qed.
Lemma scales_source g D D' V n nm a b r r' : r = g * r' -> scales g D D' V n (QElement (t "i" ++ nm) a b (QNum r)) (QElement (t "i" ++ nm) a b (QNum r')).
Proof. intros H. unfold scales, share, flow. cbn. rewrite H. destruct (node_eqb a n), (node_eqb b n); ring. Qed.
Lemma scales_diode g D D' V n nm a b m : (forall v, D m v = g * D' m v) -> scales g D D' V n (QElement (t "d" ++ nm) a b (QModel m)) (QElement (t "d" ++ nm) a b (QModel m)).
Proof. intros H. unfold scales, share, flow. cbn. rewrite H. destruct (node_eqb a n), (node_eqb b n); ring. Qed.
Lemma scales_away g D D' V n nm nm' a b v v' : node_eqb a n = false -> node_eqb b n = false ->
  scales g D D' V n (QElement nm a b v) (QElement nm' a b v').
Proof. intros A B. unfold scales, share. rewrite A, B. ring. Qed.

(** C124: whatever the scaling factor, the currents leaving a semiconductor node in the
    scaled network are the factor times those of the unscaled network at the same
    voltages, so that the two networks have the same solutions there. *)
Theorem C124_scaling_partial : forall g c ds rs vt V j x y (top : bool), 0 < g ->
  let n := if top then Top j x y else Bot j x y in
  let net k := leaving (law vt (models k c ds)) V n (body (scaled k c ds rs)) in
  net g = g * net 1 /\ (net g = 0 <-> net 1 = 0).
Proof.
  intros g c ds rs vt V j x y top Pg n net.
  assert (E : net g = g * net 1).
  { unfold net. apply leaving_scale. unfold body. apply Forall2_flat_map. intros x'. apply Forall2_flat_map. intros y'.
    unfold pixel. change (pixel_kind (scaled g c ds rs) x' y') with (pixel_kind (scaled 1 c ds rs) x' y').
    set (k := pixel_kind (scaled 1 c ds rs) x' y').
    unfold create_node. cbn [q_isc].
    assert (L : forall g, length (match k with Normal => map (fun i => g_inj (scaled g c ds rs) x' y' / 255 * i) (g_isc (scaled g c ds rs)) | _ => map (fun i => 0 * i) (g_isc (scaled g c ds rs)) end) = length ds)
      by (intros g'; destruct k; rewrite map_length; cbn [g_isc scaled]; apply map_length).
    rewrite !L. apply Forall2_flat_map. intros j'.
    set (D := law vt (models g c ds)). set (D' := law vt (models 1 c ds)).
    assert (HD : forall m v, D m v = g * D' m v) by (intros; apply law_scale). clearbody D D'.
    assert (Iv : forall r, / (r / g) = g * / (r / 1)).
    { intros r. destruct (Req_dec r 0) as [->|N]; [unfold Rdiv; rewrite !Rmult_0_l; rewrite Rinv_0; ring|field; lra]. }
    assert (Hi : nth j' match k with Normal => map (fun i => g_inj (scaled g c ds rs) x' y' / 255 * i) (g_isc (scaled g c ds rs)) | _ => map (fun i => 0 * i) (g_isc (scaled g c ds rs)) end 0 =
                 g * nth j' match k with Normal => map (fun i => g_inj (scaled 1 c ds rs) x' y' / 255 * i) (g_isc (scaled 1 c ds rs)) | _ => map (fun i => 0 * i) (g_isc (scaled 1 c ds rs)) end 0).
    { cbn [g_isc g_inj scaled]. destruct k; rewrite !map_map; apply nth_scale; intros; ring. }
    assert (Inv : forall (f : qjunction -> R) l, / nth j' (map (fun a => f a / g) l) 0 = g * / nth j' (map (fun a => f a / 1) l) 0).
    { intros f l. rewrite (nth_scale (fun a => f a / g) (fun a => f a / 1) (/ g)) by (intros; field; lra).
      destruct (Req_dec (nth j' (map (fun a => f a / 1) l) 0) 0) as [->|N]; [rewrite Rmult_0_r, Rinv_0; ring|field; split; lra]. }
    assert (Inv' : / nth j' (map (fun r => r / (qc_lx c * qc_ly c) / g) rs) 0 = g * / nth j' (map (fun r => r / (qc_lx c * qc_ly c) / 1) rs) 0).
    { rewrite (nth_scale (fun r => r / (qc_lx c * qc_ly c) / g) (fun r => r / (qc_lx c * qc_ly c) / 1) (/ g)) by (intros; unfold Rdiv; rewrite Rinv_1; ring).
      destruct (Req_dec (nth j' (map (fun r => r / (qc_lx c * qc_ly c) / 1) rs) 0) 0) as [->|N]; [rewrite Rmult_0_r, Rinv_0; ring|field; split; lra]. }
    unfold create_junction. cbn [q_isc q_top q_bot q_rsh q_rser g_s scaled].
    apply Forall2_app; [|apply Forall2_app].
    - assert (MX : forall a b k, / a = g * / b -> / (a / k) = g * / (b / k)) by (intros a b k' H; unfold Rdiv; rewrite !Rinv_mult, H; ring).
      assert (MY : forall a b k, / a = g * / b -> / (a * k) = g * / (b * k)) by (intros a b k' H; rewrite !Rinv_mult, H; ring).
      repeat apply Forall2_cons; [..|apply Forall2_nil].
      + exact (scales_diode g D D' V n (t "1_" ++ loc j' x' y') _ _ _ (HD _)).
      + exact (scales_diode g D D' V n (t "2_" ++ loc j' x' y') _ _ _ (HD _)).
      + apply scales_source. exact Hi.
      + apply (scales_res g D D' V n (t "shunt_" ++ loc j' x' y')). apply (Inv (fun a => q_shunt a / (qc_lx c * qc_ly c))).
      + apply (scales_res g D D' V n (t "tX" ++ _)). apply MX. apply (Inv q_sheet_top).
      + apply (scales_res g D D' V n (t "tY" ++ _)). apply MY. apply (Inv q_sheet_top).
      + apply (scales_res g D D' V n (t "bX" ++ _)). apply MX. apply (Inv q_sheet_bot).
      + apply (scales_res g D D' V n (t "bY" ++ _)). apply MY. apply (Inv q_sheet_bot).
      + apply (scales_res g D D' V n (t "series" ++ _)). exact Inv'.
    - assert (Am : forall a b, node_eqb (Met j' a b) n = false) by (intros; unfold n; destruct top; reflexivity).
      assert (Ax : node_eqb Ext n = false) by (unfold n; destruct top; reflexivity).
      destruct (j' =? 0)%nat; [|constructor]. destruct k; [constructor| |];
        (constructor; [apply (scales_res g D D' V n (t "contact" ++ _)), Iv|]);
        repeat (apply Forall2_cons; [apply scales_away; auto|]); constructor.
    - constructor; [|constructor]. unfold scales, share. ring. }
  split; [exact E|]. rewrite E. split; intros H; [|rewrite H; ring].
  apply Rmult_integral in H as [H|H]; [lra|assumption].
Qed.
Print Assumptions C124_scaling_partial.
Example C124_scaling_example : 0 < / sqrt 4 /\ exists rs, series_of 2 (tunnels ex_items) 7 = Ok rs /\
  length (body (scaled (/ sqrt 4) (ex_c ex_items) [mkQD 8 4 2 1; mkQD 8 4 2 1] rs)) = 44%nat.
Proof.
  split; [apply Rinv_0_lt_compat, sqrt_lt_R0; lra|]. unfold series_of. cbn [tunnels ex_items flat_map app put_tunnels put repeat bindR].
  eexists. split; [reflexivity|]. unfold body, pixel, pixel_kind. cbn [scaled g_con ex_c qc_con g_nx g_ny qc_nx qc_ny seq flat_map Nat.eqb].
  destruct (Rle_lt_dec 0 55); [|lra]. destruct (Rle_lt_dec 255 55); [lra|]. destruct (Rle_lt_dec 255 200); [lra|]. reflexivity.
Qed.

(** The resistances of the bus bars (1e-16) are not scaled: the current into the metal
    node of a bus pixel does not scale with the rest. *)
Theorem C124_bus_refuted : exists c ds rs V g, 0 < g /\
  let net k := leaving (law 1 (models k c ds)) V (Met 0 0 0) (body (scaled k c ds rs)) in
  net g <> g * net 1.
Proof.
  exists (mkQC [Junc ex_j] 1 1 1 1 1 1 1 1 (fun _ _ => 0) (fun _ _ => 255)), [mkQD 8 4 2 1], [1], (fun n => match n with Ext => 1 | _ => 0 end), 2.
  split; [lra|]. cbv zeta. unfold body, pixel, pixel_kind. cbn [scaled g_con qc_con g_nx g_ny qc_nx qc_ny seq flat_map].
  destruct (Rle_lt_dec 255 55); [lra|]. destruct (Rle_lt_dec 255 200); [lra|].
  unfold create_node. cbn [q_isc g_isc scaled map length seq flat_map]. unfold create_junction.
  cbn [app Nat.eqb leaving share node_eqb andb is_metal nth q_isc q_top q_bot q_rsh q_rser g_top g_bot g_rsh g_rser g_contact scaled map].
  assert (P : / / (10 ^ 16) = 10 ^ 16) by apply Rinv_inv. assert (Q : 0 < 10 ^ 16) by (apply pow_lt; lra).
  set (u := / 10 ^ 16) in *. set (w := 10 ^ 16) in *. clearbody u w.
  unfold flow. cbn.
  intros H. unfold Rdiv in H. rewrite !P in H. ring_simplify in H. lra.
Qed.
(** The metal: a finger pixel is connected to its neighbours by the resistivity of the metal
    over the height of the finger (at least 1e-16 after scaling), times length over width; a
    bus pixel by 1e-16, and to the outside; other pixels have no metal. *)
Theorem C121_metal : forall c ms ls x y i0,
  quasi3d c = Ok (ms, ls) -> (x < qc_nx c)%nat -> (y < qc_ny c)%nat -> 0 < qc_lx c -> 0 < qc_ly c ->
  (exists j0 js, junctions (qc_items c) = j0 :: js /\ qj_j01 j0 = Some i0) -> 0 < i0 ->
  let g := / sqrt i0 in let con := qc_con c x y in let line := Rmax (qc_line c / qc_h c / g) (/ 10 ^ 16) in
  (con <= 55 -> forall b, between (Met 0 x y) b ls = []) /\
  (55 < con <= 200 -> between (Met 0 x y) (Met 0 (x + 1) y) ls = [QNum (line * (qc_lx c / qc_ly c))] /\
     between (Met 0 x y) (Met 0 x (y + 1)) ls = [QNum (line * (qc_ly c / qc_lx c))]) /\
  (200 < con -> between (Met 0 x y) (Met 0 (x + 1) y) ls = [QNum (/ 10 ^ 16)] /\ between (Met 0 x y) (Met 0 x (y + 1)) ls = [QNum (/ 10 ^ 16)]).
Proof.
  intros c ms ls x y i0 H Hx Hy Lx Ly (j0 & js & Ej & E0) P g con line.
  unfold quasi3d in H. destruct (diodes_of (junctions (qc_items c))) as [ds|] eqn:Ed; [|discriminate]. cbn [bindR] in H.
  destruct (series_of _ _ _) as [rs|] eqn:Es; [|discriminate]. cbn [bindR] in H.
  destruct (diodes_spec _ _ Ed) as [Ld Fd].
  assert (Sc : scaling ds = g /\ 0 < g).
  { apply scaling_value; [|assumption]. destruct ds as [|d ds']; [rewrite Ej in Ld; discriminate|]. exists d, ds'. split; [reflexivity|].
    destruct (Fd 0%nat j0) as (d' & E' & _ & E01 & _); [now rewrite Ej|]. cbn in E'. injection E' as <-. congruence. }
  destruct Sc as [Sc Pg]. rewrite Sc in H. injection H as <- <-. set (gr := scaled g c ds rs).
  assert (Ln : (0 < length (g_isc gr))%nat) by (unfold gr; cbn [g_isc scaled]; rewrite map_length, Ld, Ej; cbn; lia).
  assert (B : forall b, between (Met 0 x y) b (body gr) = _) by (intros b; apply (between_body gr (Met 0 x y) b 0 x y); [right; now right|exact Ln|exact Hx|exact Hy]).
  destruct (eqb_next x) as [X1 X2]. destruct (eqb_next y) as [Y1 Y2].
  assert (Ek : pixel_kind gr x y = if Rle_lt_dec con 55 then Normal else if Rle_lt_dec con 200 then Finger else Bus) by reflexivity.
  assert (Eg : g_metal gr = qc_line c / qc_h c / g) by reflexivity. assert (S1 : g_s gr = qc_ly c / qc_lx c) by reflexivity.
  cbv zeta in B. rewrite Ek, Eg, S1 in B. clearbody gr.
  assert (Z11 : 1 - 1 = 0) by ring.
  split; [intros Hc b; rewrite B|split; intros Hc; rewrite !B]; clear B; unfold create_junction; (destruct (Rle_lt_dec con 55) as [Q|Q]; [|destruct (Rle_lt_dec con 200) as [Q'|Q']]); try lra;
    destruct (Nat.eqb_spec (0 + 1) (length (g_isc gr))) as [En|En]; cbn [Nat.eqb app is_metal]; unfold between; cbn [flat_map node_eqb andb Nat.eqb];
    rewrite ?Nat.eqb_refl, ?X1, ?X2, ?Y1, ?Y2; cbn [andb app Nat.eqb]; try reflexivity; try (split; reflexivity);
    rewrite ?Rmult_1_r, Z11, Rmult_0_r, Rplus_0_r; fold line; split; do 2 f_equal; field; lra.
Qed.
Example C121_metal_example : exists ms ls, let c := mkQC ex_items 7 6 3 4 2 1 2 1 (fun _ _ => 255) (fun x _ => if (x =? 0)%nat then 100 else 255) in
  quasi3d c = Ok (ms, ls) /\ between (Met 0 0 0) (Met 0 1 0) ls = [QNum (Rmax (3 / 4 / / sqrt 4) (/ 10 ^ 16) * (2 / 1))].
Proof.
  set (c := mkQC ex_items 7 6 3 4 2 1 2 1 (fun _ _ => 255) (fun x _ => if (x =? 0)%nat then 100 else 255)).
  assert (E : exists p, quasi3d c = Ok p).
  { unfold quasi3d. cbn. eexists. reflexivity. }
  destruct E as [[ms ls] E]. exists ms, ls. split; [exact E|].
  destruct (C121_metal c ms ls 0 0 4 E) as (_ & F & _); try (cbn; lia); try (cbn; lra); [eexists _, _; split; reflexivity|].
  apply F. cbn. lra.
Qed.

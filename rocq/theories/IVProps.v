(** Properties C29, C30: the current-voltage curve of a multi-junction cell. *)
From Coq Require Import Reals List Bool Arith Lia Lra Psatz Permutation.
From Verif Require Import Common InterpModel InterpProps NpModel IVModel.
Import ListNotations.
Open Scope R_scope.
Open Scope list_scope.

(** * Specification *)

(** A junction table: currents and voltages both non-decreasing. *)
Definition good_junction (n : nat) (j : junction_iv) : Prop :=
  length (j_current j) = n /\ length (j_voltage j) = n /\
  nondecreasing (j_current j) /\ nondecreasing (j_voltage j).
(** A tunnel junction: its voltage grows with its current. *)
Definition good_tunnel (vi : R -> R) : Prop := forall a b, a <= b -> vi a <= vi b.

(** [J] is a current of smallest magnitude among the junctions at sample [s]. *)
Definition limiting (js : list junction_iv) (s : nat) (J : R) : Prop :=
  (exists j, In j js /\ J = at_ (j_current j) s) /\
  forall j, In j js -> Rabs J <= Rabs (at_ (j_current j) s).

(** * The limiting currents *)

Lemma where_less_length l : forall m, length l = length m -> length (where_less l m) = length l.
Proof. induction l as [|a l IH]; intros [|b m] H; simpl in *; try discriminate; auto. Qed.
Lemma where_less_nth l : forall m s, length l = length m -> (s < length l)%nat ->
  at_ (where_less l m) s = abs_less (at_ l s) (at_ m s).
Proof.
  induction l as [|a l IH]; intros [|b m] s H Hs; simpl in *; try discriminate; try lia.
  destruct s as [|s]; [reflexivity|]. apply IH; lia.
Qed.

Lemma minimum_J_spec n js : js <> [] -> Forall (good_junction n) js ->
  length (minimum_J js) = n /\ forall s, (s < n)%nat -> limiting js s (at_ (minimum_J js) s).
Proof.
  destruct js as [|j0 js]; [congruence|]. intros _ H. inversion H as [|? ? H0 H']; subst. simpl.
  assert (G : forall rest done m, Forall (good_junction n) rest -> length m = n -> done <> [] ->
     (forall s, (s < n)%nat -> limiting done s (at_ m s)) ->
     let r := fold_left (fun m j => where_less m (j_current j)) rest m in
     length r = n /\ forall s, (s < n)%nat -> limiting (done ++ rest) s (at_ r s)).
  { clear. induction rest as [|j rest IH]; intros done m Hr Hm Hd Hl; simpl.
    - split; [assumption|]. now rewrite app_nil_r.
    - inversion Hr as [|? ? [Hj _] Hr']; subst.
      assert (Hw : length (where_less m (j_current j)) = length m) by (apply where_less_length; congruence).
      replace (done ++ j :: rest) with ((done ++ [j]) ++ rest) by now rewrite <- app_assoc.
      apply IH; [assumption|assumption|destruct done; discriminate|].
      intros s Hs. rewrite where_less_nth by (rewrite ?Hj; auto). specialize (Hl s Hs).
      destruct Hl as [(j1 & Hj1 & E) Hmin]. unfold abs_less. destruct (Rlt_dec _ _) as [Hlt|Hge].
      + split; [exists j1; split; [apply in_or_app; auto|assumption]|].
        intros j2 Hj2. apply in_app_or in Hj2 as [Hj2|[<-|[]]]; [auto|lra].
      + split; [exists j; split; [apply in_or_app; right; now left|reflexivity]|].
        intros j2 Hj2. apply in_app_or in Hj2 as [Hj2|[<-|[]]]; [|lra]. specialize (Hmin j2 Hj2). lra. }
  apply (G js [j0]); auto; try discriminate.
  - apply H0.
  - intros s Hs. split; [exists j0; split; [now left|reflexivity]|]. intros j [<-|[]]. lra.
Qed.

(** * Monotonicity of the total voltage *)
Lemma sum_le {A} (f g : A -> R) l : (forall a, In a l -> f a <= g a) -> sum (map f l) <= sum (map g l).
Proof.
  unfold sum. induction l as [|a l IH]; intros H; simpl; [lra|].
  assert (f a <= g a) by (apply H; now left). assert (fold_right Rplus 0 (map f l) <= fold_right Rplus 0 (map g l)) by (apply IH; intros; apply H; now right). lra.
Qed.
Lemma sum_combine {A} (f g : A -> R) (w : R) l :
  sum (map (fun a => (1 - w) * f a + w * g a) l) = (1 - w) * sum (map f l) + w * sum (map g l).
Proof. unfold sum. induction l as [|a l IH]; simpl; [ring|]. rewrite IH. ring. Qed.

Lemma total_V_mono n Rs tunnels js a b : 0 < Rs -> (1 <= n)%nat ->
  Forall (good_junction n) js -> Forall good_tunnel tunnels -> a < b ->
  total_V Rs tunnels js a < total_V Rs tunnels js b.
Proof.
  intros HR Hn Hj Ht Hab. unfold total_V. rewrite Forall_forall in *.
  assert (H1 : sum (map (fun vi => vi (- b)) tunnels) <= sum (map (fun vi => vi (- a)) tunnels)).
  { apply sum_le. intros vi Hvi. apply (Ht vi Hvi). lra. }
  assert (H2 : sum (map (junction_V a) js) <= sum (map (junction_V b) js)).
  { apply sum_le. intros j Hin. destruct (Hj j Hin) as (L1 & L2 & M1 & M2). unfold junction_V.
    apply np_interp_mono; auto; try lia; lra. }
  assert (Rs * a < Rs * b) by (apply Rmult_lt_compat_l; assumption). lra.
Qed.

Lemma series_R_pos r : 0 < series_R r.
Proof. unfold series_R. apply Rlt_le_trans with (/ 10 ^ 14); [apply Rinv_0_lt_compat; lra|apply Rmax_r]. Qed.

Lemma map_nth' (f : R -> R) l k : (k < length l)%nat -> at_ (map f l) k = f (at_ l k).
Proof.
  intros H. rewrite (nth_indep _ _ (f 0)) by now rewrite map_length. apply map_nth.
Qed.

Lemma total_nondecreasing n Rs tunnels js mJ : 0 < Rs -> (1 <= n)%nat ->
  Forall (good_junction n) js -> Forall good_tunnel tunnels -> nondecreasing mJ ->
  nondecreasing (map (total_V Rs tunnels js) mJ).
Proof.
  intros HR Hn Hj Ht Hm i k Hik. rewrite map_length in Hik. rewrite !map_nth' by lia.
  assert (H : at_ mJ i <= at_ mJ k) by now apply Hm.
  destruct (Rle_lt_or_eq_dec _ _ H) as [E|E]; [|rewrite E; lra].
  left. eapply total_V_mono; eauto.
Qed.

(** Interpolating at a node voltage gives the value at the node, also with repeated
    currents. *)
Lemma interp_at_node n Rs tunnels js mJ (g : R -> R) k : 0 < Rs -> (1 <= n)%nat ->
  Forall (good_junction n) js -> Forall good_tunnel tunnels -> nondecreasing mJ -> (k < length mJ)%nat ->
  np_interp (map (total_V Rs tunnels js) mJ) (map g mJ) (total_V Rs tunnels js (at_ mJ k)) = g (at_ mJ k).
Proof.
  intros HR Hn Hj Ht Hm Hk.
  assert (Hnd := total_nondecreasing n Rs tunnels js mJ HR Hn Hj Ht Hm).
  set (T := total_V Rs tunnels js) in *. set (tV := map T mJ) in *.
  assert (Htl : length tV = length mJ) by apply map_length.
  destruct (count_le_spec tV (T (at_ mJ k)) Hnd) as (C1 & C2 & C3).
  unfold np_interp. set (c := count_le tV (T (at_ mJ k))) in *.
  assert (Hc : (k < c)%nat).
  { destruct (lt_dec k c); [assumption|]. specialize (C3 k ltac:(lia)).
    unfold tV in C3. rewrite map_nth' in C3 by lia. lra. }
  assert (Hsame : at_ mJ (c - 1) = at_ mJ k).
  { assert (Hle : at_ mJ k <= at_ mJ (c - 1)) by (apply Hm; lia).
    destruct (Rle_lt_or_eq_dec _ _ Hle) as [E|E]; [|congruence]. exfalso.
    assert (T (at_ mJ k) < T (at_ mJ (c - 1))) by (eapply total_V_mono; eauto).
    specialize (C2 (c - 1)%nat ltac:(lia)). unfold tV in C2. rewrite map_nth' in C2 by lia. lra. }
  destruct (Nat.eqb_spec c 0); [lia|]. destruct (Nat.eqb_spec c (length tV)) as [E|E].
  - rewrite map_nth' by lia. replace (length tV - 1)%nat with (c - 1)%nat by lia. now rewrite Hsame.
  - rewrite !map_nth' by lia. unfold tV. rewrite !map_nth' by lia. rewrite Hsame. ring.
Qed.

(** * C29 *)

(** Junction data are accepted exactly when there is a junction, and all arrays of
    voltages and currents have one non-zero length. *)
Theorem C29_accepts : forall R_series tunnels js outV,
  (exists r, iv_multijunction R_series tunnels js outV = Ok r) <->
  js <> [] /\ exists n, (0 < n)%nat /\ forall j, In j js -> length (j_voltage j) = n /\ length (j_current j) = n.
Proof.
  intros Rs ts js outV. unfold iv_multijunction. destruct js as [|j0 js]; [split; [intros [r H]; discriminate|intros [H _]; congruence]|].
  assert (E : shapes_ok (j0 :: js) = true <-> exists n, (0 < n)%nat /\ forall j, In j (j0 :: js) -> length (j_voltage j) = n /\ length (j_current j) = n).
  { unfold shapes_ok. rewrite andb_true_iff, forallb_forall, Nat.ltb_lt. split.
    - intros [H1 H2]. exists (length (j_current j0)). split; [exact H2|]. intros j Hj. specialize (H1 j Hj).
      apply andb_true_iff in H1 as [H1 H3]. apply Nat.eqb_eq in H1, H3. split; congruence.
    - intros (n & Hn & H). destruct (H j0 ltac:(now left)) as [_ E0]. rewrite E0. split; [|exact Hn].
      intros j Hj. destruct (H j Hj) as [E1 E2]. rewrite E1, E2, Nat.eqb_refl. reflexivity. }
  split.
  - intros [r H]. split; [discriminate|]. apply E. destruct (shapes_ok (j0 :: js)); [reflexivity|discriminate].
  - intros [_ H]. apply E in H. rewrite H. eexists. reflexivity.
Qed.
Example C29_accepts_case : exists r, iv_multijunction 1 [] [{| j_voltage := [1; 2]; j_current := [3; 4] |}] [0] = Ok r.
Proof. apply C29_accepts. split; [discriminate|]. exists 2%nat. split; [lia|]. intros j [<-|[]]. split; reflexivity. Qed.

(** The series law. For any number of junctions with monotone tables, any tunnel
    junctions with monotone voltage and any series resistance:
    - the computed currents are, up to order, the limiting currents of the samples;
    - at the voltage [V] that belongs to a computed current [J], that is the sum of
      the junction voltages at [J] and of the series and tunnel contributions, the
      reported cell current is -J and every junction is reported at its own voltage;
    - with resistive tunnel junctions, Kirchhoff's law holds at every requested
      voltage between the smallest and the largest such [V];
    - the reported current always lies between the extreme computed currents. *)
Theorem C29_series_law_partial :
  forall n R_series tunnels js outV r,
    (1 <= n)%nat -> js <> [] -> Forall (good_junction n) js -> Forall good_tunnel tunnels ->
    iv_multijunction R_series tunnels js outV = Ok r ->
    exists currents Rs,
      Rs = Rmax R_series (/ 10 ^ 14) /\ length currents = n /\ nondecreasing currents /\
      (exists samples, Permutation samples currents /\ length samples = n /\
          forall s, (s < n)%nat -> limiting js s (at_ samples s)) /\
      let V J := Rs * J - sum (map (fun vi => vi (- J)) tunnels)
                 + sum (map (fun j => np_interp (j_current j) (j_voltage j) J) js) in
      iv_V r = outV /\ length (iv_I r) = length outV /\
      (forall p i, nth_error (iv_junctions r) p = Some i -> snd i = iv_I r /\ length (fst i) = length outV) /\
      (forall o k, (o < length outV)%nat -> (k < n)%nat -> at_ outV o = V (at_ currents k) ->
         at_ (iv_I r) o = - at_ currents k /\
         forall p j, nth_error js p = Some j -> exists i, nth_error (iv_junctions r) p = Some i /\
           at_ (fst i) o = np_interp (j_current j) (j_voltage j) (at_ currents k)) /\
      (forall o res, (o < length outV)%nat -> Forall2 (fun vi R => forall J, vi J = R * J) tunnels res ->
         V (at_ currents 0) <= at_ outV o <= V (at_ currents (n - 1)) ->
         at_ outV o = - Rs * at_ (iv_I r) o - sum (map (fun R => R * at_ (iv_I r) o) res)
                      + sum (map (fun i => at_ (fst i) o) (iv_junctions r))) /\
      (forall o, (o < length outV)%nat -> at_ currents 0 <= - at_ (iv_I r) o <= at_ currents (n - 1)).
Proof.
  intros n R_series tunnels js outV r Hn Hne Hj Ht Hr.
  destruct (minimum_J_spec n js Hne Hj) as [HlenM Hlim].
  assert (HRs := series_R_pos R_series).
  set (mJ := np_sort (minimum_J js)).
  assert (Hlen : length mJ = n) by (unfold mJ; now rewrite np_sort_length).
  assert (Hm : nondecreasing mJ) by apply np_sort_nondecreasing.
  set (Rs := series_R R_series) in *.
  set (tV := map (total_V Rs tunnels js) mJ).
  assert (Hr' : r = {| iv_V := outV; iv_I := map Ropp (map (np_interp tV mJ) outV);
              iv_junctions := map (fun j => (map (np_interp tV (map (fun J => junction_V J j) mJ)) outV,
                                             map Ropp (map (np_interp tV mJ) outV))) js;
              iv_Rseries := (map (fun J => J * Rs) (map (np_interp tV mJ) outV), map Ropp (map (np_interp tV mJ) outV)) |}).
  { unfold iv_multijunction in Hr. destruct js as [|j0 js']; [congruence|].
    destruct (shapes_ok (j0 :: js')); [|discriminate]. injection Hr as <-. reflexivity. }
  clear Hr. exists mJ, Rs. split; [reflexivity|]. split; [assumption|]. split; [assumption|].
  split. { exists (minimum_J js). split; [apply np_sort_perm|auto]. }
  cbv zeta. change (fun j => np_interp (j_current j) (j_voltage j)) with (fun j J => junction_V J j).
  assert (HV : forall J, Rs * J - sum (map (fun vi : R -> R => vi (- J)) tunnels)
                 + sum (map (fun j => np_interp (j_current j) (j_voltage j) J) js) = total_V Rs tunnels js J) by reflexivity.
  assert (Hnd : nondecreasing tV) by (eapply total_nondecreasing; eauto).
  assert (HtVlen : length tV = n) by (unfold tV; rewrite map_length; assumption).
  assert (HI : forall o, (o < length outV)%nat -> at_ (iv_I r) o = - np_interp tV mJ (at_ outV o)).
  { intros o Ho. rewrite Hr'. cbn [iv_I]. rewrite map_nth' by (now rewrite map_length). rewrite map_nth' by assumption. reflexivity. }
  split; [now rewrite Hr'|]. split; [rewrite Hr'; cbn [iv_I]; now rewrite !map_length|].
  split; [|split; [|split]].
  - intros p i Hp. rewrite Hr' in Hp. cbn [iv_junctions] in Hp.
    apply nth_error_In, in_map_iff in Hp as (j & <- & _). rewrite Hr'. cbn [fst snd iv_I]. split; [reflexivity|apply map_length].
  - intros o k Ho Hk E. rewrite HV in E. split.
    + rewrite HI by assumption. rewrite E.
      pose proof (interp_at_node n Rs tunnels js mJ (fun x => x) k HRs Hn Hj Ht Hm ltac:(lia)) as X.
      rewrite map_id in X. unfold tV. now rewrite X.
    + intros p j Hp. eexists. split.
      * rewrite Hr'. cbn [iv_junctions]. rewrite (map_nth_error _ _ _ Hp). reflexivity.
      * cbn [fst]. rewrite map_nth' by assumption. rewrite E.
        apply (interp_at_node n Rs tunnels js mJ (fun J => junction_V J j) k HRs Hn Hj Ht Hm). lia.
  - intros o res Ho Hres Hrange. rewrite !HV in Hrange. rewrite HI by assumption.
    destruct (np_interp_weights tV (at_ outV o) Hnd ltac:(lia)) as (i & k & w & Hi & Hk & Hik & Hw & Ew & Vw & _).
    rewrite HtVlen in *.
    assert (Hrange' : at_ tV 0 <= at_ outV o <= at_ tV (n - 1)) by (unfold tV; rewrite !map_nth' by lia; exact Hrange).
    specialize (Vw Hrange'). unfold tV in Vw at 1 2. rewrite !map_nth' in Vw by lia.
    rewrite Ew.
    assert (HS : sum (map (fun i0 => at_ (fst i0) o) (iv_junctions r)) =
       sum (map (fun j => (1 - w) * junction_V (at_ mJ i) j + w * junction_V (at_ mJ k) j) js)).
    { rewrite Hr'. cbn [iv_junctions]. rewrite map_map. f_equal. apply map_ext. intros j. cbn [fst].
      rewrite map_nth' by assumption. rewrite Ew, !map_nth' by lia. reflexivity. }
    rewrite HS, sum_combine.
    assert (HT : forall J, sum (map (fun vi : R -> R => vi (- J)) tunnels) = - J * sum res).
    { intros J. clear - Hres. unfold sum. induction Hres as [|vi R0 tn rs Hv _ IH]; simpl; [ring|]. rewrite Hv, IH. ring. }
    assert (HT2 : forall J, sum (map (fun R0 => R0 * J) res) = J * sum res).
    { intros J. clear. unfold sum. induction res as [|a l IH]; simpl; [ring|]. rewrite IH. ring. }
    rewrite <- Vw. unfold total_V. rewrite !HT, HT2. ring.
  - intros o Ho. rewrite HI by assumption. rewrite Ropp_involutive.
    destruct (np_interp_weights tV (at_ outV o) Hnd ltac:(lia)) as (i & k & w & Hi & Hk & Hik & Hw & Ew & _).
    rewrite HtVlen in *. rewrite Ew.
    assert (at_ mJ 0 <= at_ mJ i) by (apply Hm; lia). assert (at_ mJ i <= at_ mJ (n - 1)) by (apply Hm; lia).
    assert (at_ mJ 0 <= at_ mJ k) by (apply Hm; lia). assert (at_ mJ k <= at_ mJ (n - 1)) by (apply Hm; lia).
    split; nra.
Qed.
Print Assumptions C29_series_law_partial.

Definition ex_j1 : junction_iv := {| j_current := [-2; 0; 8]; j_voltage := [0; 1; 2] |}.
Definition ex_j2 : junction_iv := {| j_current := [-3; -1; 9]; j_voltage := [0; 1; 2] |}.
Lemma nd3 a b c : a <= b -> b <= c -> nondecreasing [a; b; c].
Proof.
  intros H1 H2 i j Hij. simpl in Hij.
  destruct i as [|[|[|i]]], j as [|[|[|j]]]; try lia; simpl; lra.
Qed.
Lemma good_ex1 : good_junction 3 ex_j1.
Proof. split; [reflexivity|split; [reflexivity|split; apply nd3; lra]]. Qed.
Lemma good_ex2 : good_junction 3 ex_j2.
Proof. split; [reflexivity|split; [reflexivity|split; apply nd3; lra]]. Qed.
Example C29_case :
  Forall (good_junction 3) [ex_j1; ex_j2] /\ Forall good_tunnel [fun J => 2 * J] /\
  exists r, iv_multijunction 1 [fun J => 2 * J] [ex_j1; ex_j2] [-1; 0; 1; 5] = Ok r.
Proof.
  split; [|split].
  - apply Forall_cons; [apply good_ex1|]. apply Forall_cons; [apply good_ex2|apply Forall_nil].
  - apply Forall_cons; [|apply Forall_nil]. intros a b H. lra.
  - eexists. reflexivity.
Qed.

(** Beyond the computed voltages Kirchhoff's law fails: the current and the
    junction voltages stay at their last values. *)
Theorem C29_out_of_range_refuted :
  exists R_series js outV r,
    Forall (good_junction 3) js /\ iv_multijunction R_series [] js outV = Ok r /\
    exists o, (o < length outV)%nat /\
      at_ outV o <> - Rmax R_series (/ 10 ^ 14) * at_ (iv_I r) o + sum (map (fun i => at_ (fst i) o) (iv_junctions r)).
Proof.
  exists 1, [ex_j1], [100]. eexists. split; [apply Forall_cons; [apply good_ex1|apply Forall_nil]|].
  split; [reflexivity|]. exists 0%nat. split; [simpl; lia|].
  assert (E : series_R 1 = 1).
  { unfold series_R. apply Rmax_left. assert (/ 10 ^ 14 <= / 1) by (apply Rinv_le_contravar; lra). lra. }
  assert (E' : Rmax 1 (/ 10 ^ 14) = 1) by exact E.
  rewrite E'. cbn [iv_I iv_junctions map fst snd nth]. rewrite E.
  assert (Em : np_sort (minimum_J [ex_j1]) = [-2; 0; 8]).
  { cbn. destruct (Rle_dec 0 8); [|lra]. cbn. destruct (Rle_dec (-2) 0); [|lra]. reflexivity. }
  rewrite Em.
  assert (Hv : forall i, (i < 3)%nat -> total_V 1 [] [ex_j1] (at_ [-2; 0; 8] i) <= 50).
  { intros i Hi. unfold total_V, junction_V, sum. cbn [map fold_right].
    assert (Hb : np_interp (j_current ex_j1) (j_voltage ex_j1) (at_ [-2; 0; 8] i) <= 2).
    { assert (increasing (j_current ex_j1)) by (apply inc3; lra).
      change (at_ [-2; 0; 8] i) with (at_ (j_current ex_j1) i). rewrite np_interp_node by assumption.
      destruct i as [|[|[|i]]]; simpl; try lra; lia. }
    destruct i as [|[|[|i]]]; cbn [nth] in *; try lra; lia. }
  assert (Hc : forall fp, np_interp (map (total_V 1 [] [ex_j1]) [-2; 0; 8]) fp 100 = at_ fp 2).
  { intros fp. assert (H0 := Hv 0%nat ltac:(lia)). assert (H1 := Hv 1%nat ltac:(lia)). assert (H2 := Hv 2%nat ltac:(lia)).
    cbn [nth] in H0, H1, H2. unfold np_interp. cbn [map count_le].
    destruct (Rle_dec (total_V 1 [] [ex_j1] (-2)) 100); [|lra].
    destruct (Rle_dec (total_V 1 [] [ex_j1] 0) 100); [|lra].
    destruct (Rle_dec (total_V 1 [] [ex_j1] 8) 100); [|lra]. reflexivity. }
  rewrite !Hc. cbn [map nth]. unfold sum, junction_V. cbn [fold_right].
  assert (increasing (j_current ex_j1)) by (apply inc3; lra).
  change 8 with (at_ (j_current ex_j1) 2) at 2. rewrite np_interp_node by (auto; simpl; lia). simpl. lra.
Qed.
Print Assumptions C29_out_of_range_refuted.

(** * C30 *)

(** For every sampled curve the reported point is a sample, its power is the
    largest, it is the first such sample, and fill factor and efficiency are
    consistent with the other reported values. *)
Theorem C30_maximum_power_point :
  forall V I power m,
    length V = length I -> mpp_parameters V I power = Some m ->
    exists k, (k < length V)%nat /\ m_Vmpp m = at_ V k /\ m_Impp m = at_ I k /\
      m_Pmpp m = at_ V k * at_ I k /\
      (forall i, (i < length V)%nat -> at_ V i * at_ I i <= m_Pmpp m) /\
      (forall i, (i < k)%nat -> at_ V i * at_ I i < m_Pmpp m) /\
      (m_Isc m * m_Voc m <> 0 -> exists f, m_FF m = Some f /\ f * (m_Isc m * m_Voc m) = m_Pmpp m) /\
      (power <> 0 -> exists e, m_Eta m = Some e /\ e * power = m_Pmpp m).
Proof.
  intros V I power m Hlen H. unfold mpp_parameters in H.
  set (P := map (fun p => fst p * snd p) (combine V I)) in *.
  assert (HP : forall i, (i < length V)%nat -> at_ P i = at_ V i * at_ I i).
  { intros i Hi. unfold P. rewrite (nth_indep _ _ (fst (0, 0) * snd (0, 0))) by (rewrite map_length, combine_length; lia).
    rewrite (map_nth (fun p => fst p * snd p)), combine_nth by assumption. reflexivity. }
  assert (HPl : length P = length V) by (unfold P; rewrite map_length, combine_length; lia).
  assert (H' : match np_max P, np_argmax P with
      | Ok pm, Ok k =>
          let isc := np_interp V I 0 in
          let voc := np_interp (map Ropp I) V 0 in
          Some {| m_Isc := isc; m_Voc := voc; m_Pmpp := pm; m_Vmpp := at_ V k; m_Impp := at_ I k;
                  m_FF := np_div pm (isc * voc); m_Eta := np_div pm power |}
      | _, _ => None
      end = Some m).
  { destruct V; [discriminate|]. destruct I; [discriminate|]. exact H. }
  clear H. destruct (np_max P) as [pm|] eqn:Em; [|discriminate]. destruct (np_argmax P) as [k|] eqn:Ek; [|discriminate].
  injection H' as <-. cbn. apply np_max_spec in Em as [Em1 Em2]. apply np_argmax_spec in Ek as (Ek1 & Ek2 & Ek3).
  assert (Epm : pm = at_ P k).
  { apply Rle_antisym.
    - destruct (In_nth _ _ 0 Em1) as (i & Hi & <-). apply Ek2, Hi.
    - apply Em2, nth_In, Ek1. }
  exists k. rewrite HPl in *. rewrite Epm, (HP k Ek1).
  repeat split; auto.
  - intros i Hi. rewrite <- !HP by assumption. now apply Ek2.
  - intros i Hi. rewrite <- !HP by lia. now apply Ek3.
  - intros Hd. unfold np_div. destruct (Req_EM_T _ 0); [contradiction|]. eexists. split; [reflexivity|]. field.
    split; intros E; apply Hd; rewrite E; ring.
  - intros Hp. unfold np_div. destruct (Req_EM_T power 0); [contradiction|]. eexists. split; [reflexivity|]. field. assumption.
Qed.
Print Assumptions C30_maximum_power_point.

(** The other two parameters: the short-circuit current is the sampled current at
    zero voltage; the open-circuit voltage is on the chord where the sampled
    current changes sign, and it is the first or last sampled voltage when the
    curve does not reach zero current. *)
Theorem C30_isc_voc :
  forall V I power m,
    length V = length I -> mpp_parameters V I power = Some m ->
    increasing V -> increasing (map Ropp I) ->
    (forall i, (i < length V)%nat -> at_ V i = 0 -> m_Isc m = at_ I i) /\
    (forall i, (i < length V)%nat -> at_ I i = 0 -> m_Voc m = at_ V i) /\
    (forall i, (S i < length V)%nat -> at_ I (S i) < 0 < at_ I i ->
       at_ V i < m_Voc m < at_ V (S i) /\
       at_ I i * (at_ V (S i) - m_Voc m) + at_ I (S i) * (m_Voc m - at_ V i) = 0) /\
    ((forall i, (i < length V)%nat -> 0 < at_ I i) -> m_Voc m = at_ V (length V - 1)).
Proof.
  intros V I power m Hlen H HV HI.
  assert (Hm : m_Isc m = np_interp V I 0 /\ m_Voc m = np_interp (map Ropp I) V 0 /\ (1 <= length V)%nat).
  { unfold mpp_parameters in H. destruct V as [|v V]; [discriminate|]. destruct I as [|i I]; [discriminate|].
    destruct (np_max _); [|discriminate]. destruct (np_argmax _); [|discriminate]. injection H as <-.
    repeat split. simpl. lia. }
  destruct Hm as (Hisc & Hvoc & Hl). assert (HIl : length (map Ropp I) = length V) by (rewrite map_length; lia).
  split; [|split; [|split]].
  - intros i Hi E. rewrite Hisc. pose proof (np_interp_node V I i HV Hi) as X. rewrite E in X. exact X.
  - intros i Hi E. rewrite Hvoc.
    assert (E0 : 0 = at_ (map Ropp I) i) by (rewrite map_nth' by lia; rewrite E; ring).
    pose proof (np_interp_node (map Ropp I) V i HI ltac:(lia)) as X. rewrite <- E0 in X. exact X.
  - intros i Hi Hsign. rewrite Hvoc.
    destruct (count_le_spec (map Ropp I) 0 (increasing_nondecreasing _ HI)) as (C1 & C2 & C3).
    assert (Ec : count_le (map Ropp I) 0 = S i).
    { set (c := count_le (map Ropp I) 0) in *.
      destruct (lt_eq_lt_dec c (S i)) as [[Hc|Hc]|Hc]; [|assumption|].
      - specialize (C3 i ltac:(lia)). rewrite map_nth' in C3 by lia. lra.
      - specialize (C2 (S i) ltac:(lia)). rewrite map_nth' in C2 by lia. lra. }
    unfold np_interp. rewrite Ec. simpl (Nat.eqb (S i) 0). cbv iota.
    destruct (Nat.eqb_spec (S i) (length (map Ropp I))); [lia|].
    replace (S i - 1)%nat with i by lia. rewrite !map_nth' by lia.
    assert (HVi : at_ V i < at_ V (S i)) by (apply HV; lia).
    set (a := at_ I i) in *. set (b := at_ I (S i)) in *. set (v := at_ V i) in *. set (u := at_ V (S i)) in *.
    assert (Eq : (u - v) / (- b - - a) * (0 - - a) + v = v + (u - v) * (a / (a - b))) by (field; lra).
    rewrite Eq.
    assert (Hq : 0 < a / (a - b) < 1).
    { split; [apply Rdiv_lt_0_compat; lra|]. apply (Rmult_lt_reg_r (a - b)); [lra|]. unfold Rdiv. rewrite Rmult_assoc, Rinv_l; lra. }
    split; [split; nra|]. field. lra.
  - intros Hpos. rewrite Hvoc.
    destruct (np_interp_weights (map Ropp I) 0 (increasing_nondecreasing _ HI) ltac:(lia)) as (i & j & w & _ & _ & _ & _ & Ew & _ & _ & Rw).
    destruct Rw as [-> ->].
    + rewrite map_nth' by lia. specialize (Hpos (length (map Ropp I) - 1)%nat ltac:(lia)). lra.
    + rewrite Ew, HIl. ring.
Qed.
Print Assumptions C30_isc_voc.

Example C30_case :
  exists m, mpp_parameters [0; 1; 2; 3] [4; 3; 1; -5] 10 = Some m /\ increasing [0; 1; 2; 3] /\ increasing (map Ropp [4; 3; 1; -5]).
Proof.
  unfold mpp_parameters, np_max, np_argmax. simpl combine. cbn [map fst snd].
  eexists. split; [reflexivity|]. split; intros i j Hij; simpl in Hij;
  destruct i as [|[|[|[|i]]]], j as [|[|[|[|j]]]]; try lia; simpl; lra.
Qed.

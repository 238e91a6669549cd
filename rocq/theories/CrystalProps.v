(** C164: directions in the Brillouin zone. C165: walks between its critical points. *)
From Coq Require Import Reals String List Bool Arith Lia Lra Psatz.
From Verif Require Import Common DetBalModel DetBalProps CrystalModel.
From Coq Require Import List.
Import ListNotations.
Open Scope R_scope.
Open Scope list_scope.

Lemma vec_eq (x y z x' y' z' : R) : x = x' -> y = y' -> z = z' -> (x, y, z) = (x', y', z').
Proof. now intros -> -> ->. Qed.
(** * C164 *)
(** The first Brillouin zone of a face-centred cubic lattice with constant [a]: a cube of half side
    2 pi / a with its corners cut off. *)
Definition in_zone (a : R) (k : vec) : Prop :=
  Rabs (vx k) <= 2 * PI / a /\ Rabs (vy k) <= 2 * PI / a /\ Rabs (vz k) <= 2 * PI / a /\
  Rabs (vx k) + Rabs (vy k) + Rabs (vz k) <= 3 * PI / a.
Definition on_boundary (a : R) (k : vec) : Prop :=
  in_zone a k /\
  (Rabs (vx k) = 2 * PI / a \/ Rabs (vy k) = 2 * PI / a \/ Rabs (vz k) = 2 * PI / a \/
   Rabs (vx k) + Rabs (vy k) + Rabs (vz k) = 3 * PI / a).
Definition largest (u : vec) : R := Rmax (Rabs (vx u)) (Rmax (Rabs (vy u)) (Rabs (vz u))).
Definition sum_abs (u : vec) : R := Rabs (vx u) + Rabs (vy u) + Rabs (vz u).
Ltac rmax := unfold Rmax; repeat (destruct (Rle_dec _ _)); try lra.
Lemma max_x u : max_abs_dot x_faces u = largest u.
Proof.
  destruct u as [[x y] z]. unfold max_abs_dot, x_faces, largest. cbn [map fold_right vdot vx vy vz fst snd]. unfold vdot. cbn [vx vy vz fst snd].
  unfold vx, vy, vz. cbn [fst snd].
  replace (1 * x + 0 * y + 0 * z) with x by ring. replace (-1 * x + 0 * y + 0 * z) with (- x) by ring.
  replace (0 * x + 1 * y + 0 * z) with y by ring. replace (0 * x + -1 * y + 0 * z) with (- y) by ring.
  replace (0 * x + 0 * y + 1 * z) with z by ring. replace (0 * x + 0 * y + -1 * z) with (- z) by ring. rewrite !Rabs_Ropp.
  pose proof (Rabs_pos x). pose proof (Rabs_pos y). pose proof (Rabs_pos z).
  set (A := Rabs x) in *. set (B := Rabs y) in *. set (C := Rabs z) in *. clearbody A B C.
  apply Rle_antisym.
  - repeat apply Rmax_lub; rmax.
  - repeat apply Rmax_lub.
    + apply Rmax_l.
    + do 2 (eapply Rle_trans; [|apply Rmax_r]). apply Rmax_l.
    + do 4 (eapply Rle_trans; [|apply Rmax_r]). apply Rmax_l.
Qed.
Lemma fold_max_lub l b : 0 <= b -> (forall x, In x l -> x <= b) -> fold_right Rmax 0 l <= b.
Proof. intros Hb. induction l as [|x l IH]; intros H; cbn; [exact Hb|]. apply Rmax_lub; [apply H; now left|apply IH; intros y Hy; apply H; now right]. Qed.
Lemma fold_max_ub l x : In x l -> x <= fold_right Rmax 0 l.
Proof. induction l as [|y l IH]; intros H; [contradiction|]. cbn. destruct H as [<-|H]; [apply Rmax_l|]. eapply Rle_trans; [apply IH; exact H|apply Rmax_r]. Qed.
Lemma sqrt3_pos : 0 < sqrt 3. Proof. apply sqrt_lt_R0. lra. Qed.
Lemma max_l u : max_abs_dot l_faces u = sum_abs u / sqrt 3.
Proof.
  pose proof sqrt3_pos as H3. destruct u as [[x y] z]. unfold sum_abs, vx, vy, vz. cbn [fst snd]. unfold max_abs_dot.
  assert (E : map (fun f => Rabs (vdot f (x, y, z))) l_faces = map (fun f => Rabs (vdot f (x, y, z)) / sqrt 3)
     [(1, 1, 1); (1, 1, -1); (1, -1, 1); (1, -1, -1); (-1, 1, 1); (-1, 1, -1); (-1, -1, -1); (-1, -1, 1)]).
  { unfold l_faces. rewrite map_map. apply map_ext. intros [[f g] h]. unfold vdot, vscale, vx, vy, vz. cbn [fst snd].
    replace (1 / sqrt 3 * f * x + 1 / sqrt 3 * g * y + 1 / sqrt 3 * h * z) with ((f * x + g * y + h * z) * / sqrt 3) by (field; lra).
    rewrite Rabs_mult, (Rabs_right (/ sqrt 3)); [reflexivity|]. left. now apply Rinv_0_lt_compat. }
  rewrite E. apply Rle_antisym.
  - apply fold_max_lub.
    + unfold Rdiv. apply Rmult_le_pos; [|left; now apply Rinv_0_lt_compat]. pose proof (Rabs_pos x). pose proof (Rabs_pos y). pose proof (Rabs_pos z). lra.
    + intros v Hv. apply in_map_iff in Hv as ([[f g] h] & <- & Hf). unfold Rdiv. apply Rmult_le_compat_r; [left; now apply Rinv_0_lt_compat|].
      unfold vdot, vx, vy, vz. cbn [fst snd].
      assert (AB : Rabs f = 1 /\ Rabs g = 1 /\ Rabs h = 1).
      { cbn [In] in Hf. repeat (destruct Hf as [Hf|Hf]; [injection Hf as <- <- <-; repeat split; unfold Rabs; destruct (Rcase_abs _); lra|]). contradiction. }
      destruct AB as (A1 & A2 & A3). eapply Rle_trans; [apply Rabs_triang|]. eapply Rle_trans; [apply Rplus_le_compat_r, Rabs_triang|].
      rewrite !Rabs_mult, A1, A2, A3. lra.
  - apply fold_max_ub. apply in_map_iff.
    exists ((if Rlt_dec x 0 then -1 else 1), (if Rlt_dec y 0 then -1 else 1), (if Rlt_dec z 0 then -1 else 1)). split.
    + f_equal. unfold vdot, vx, vy, vz. cbn [fst snd].
      assert (S : forall v, (if Rlt_dec v 0 then -1 else 1) * v = Rabs v) by (intros v; unfold Rabs; destruct (Rlt_dec v 0); destruct (Rcase_abs v); lra).
      rewrite !S. apply Rabs_right. pose proof (Rabs_pos x). pose proof (Rabs_pos y). pose proof (Rabs_pos z). lra.
    + destruct (Rlt_dec x 0), (Rlt_dec y 0), (Rlt_dec z 0); cbn [In]; tauto.
Qed.
Definition nonzero (u : vec) : Prop := 0 < vdot u u.
Lemma sum_abs_pos u : nonzero u -> 0 < sum_abs u /\ 0 < largest u.
Proof.
  intros H. destruct u as [[x y] z]. unfold nonzero, vdot, sum_abs, largest, vx, vy, vz in *. cbn [fst snd] in *.
  pose proof (Rabs_pos x). pose proof (Rabs_pos y). pose proof (Rabs_pos z).
  assert (D : x <> 0 \/ y <> 0 \/ z <> 0). { destruct (Req_dec x 0) as [->|]; [|tauto]. destruct (Req_dec y 0) as [->|]; [|tauto]. right. right. intros ->. lra. }
  pose proof (Rmax_l (Rabs x) (Rmax (Rabs y) (Rabs z))). pose proof (Rmax_r (Rabs x) (Rmax (Rabs y) (Rabs z))).
  pose proof (Rmax_l (Rabs y) (Rabs z)). pose proof (Rmax_r (Rabs y) (Rabs z)).
  destruct D as [D|[D|D]]; apply Rabs_pos_lt in D; lra.
Qed.
Lemma k_max_spec a u : 0 < a -> nonzero u -> 0 < k_max a u /\ k_max a u * largest u <= 2 * PI / a /\ k_max a u * sum_abs u <= 3 * PI / a /\
  (k_max a u * largest u = 2 * PI / a \/ k_max a u * sum_abs u = 3 * PI / a).
Proof.
  intros Ha Hu. destruct (sum_abs_pos u Hu) as [S1 S2]. pose proof sqrt3_pos as H3. pose proof PI_RGT_0 as HP. unfold k_max. rewrite max_x, max_l.
  replace (sqrt 3 * PI / a / (sum_abs u / sqrt 3)) with (3 * PI / a / sum_abs u).
  2:{ transitivity (sqrt 3 * sqrt 3 * PI / a / sum_abs u); [rewrite sqrt_sqrt by lra; reflexivity|]. field. repeat split; lra. }
  set (A := 2 * PI / a / largest u). set (B := 3 * PI / a / sum_abs u).
  assert (HA : A * largest u = 2 * PI / a) by (unfold A; field; lra). assert (HB : B * sum_abs u = 3 * PI / a) by (unfold B; field; lra).
  assert (PA : 0 < A) by (unfold A; repeat apply Rdiv_lt_0_compat; lra). assert (PB : 0 < B) by (unfold B; repeat apply Rdiv_lt_0_compat; lra).
  clearbody A B. unfold Rmin. destruct (Rle_dec A B).
  - split; [exact PA|]. split; [lra|]. split; [|now left]. rewrite <- HB. apply Rmult_le_compat_r; lra.
  - split; [exact PB|]. split; [|split; [lra|now right]]. rewrite <- HA. apply Rmult_le_compat_r; lra.
Qed.
Lemma direction_unit t p vin : match vin with Some v => nonzero v | None => True end -> vdot (direction t p vin) (direction t p vin) = 1.
Proof.
  intros H. destruct vin as [[[x y] z]|]; unfold direction, vdot, vx, vy, vz; cbn [fst snd].
  - unfold nonzero in H. unfold vnorm. assert (Q : 0 < sqrt (vdot (x, y, z) (x, y, z))) by (now apply sqrt_lt_R0).
    set (n := sqrt (vdot (x, y, z) (x, y, z))) in *. assert (EN : n * n = x * x + y * y + z * z).
    { unfold n. rewrite sqrt_sqrt by lra. reflexivity. }
    clearbody n. replace (x / n * (x / n) + y / n * (y / n) + z / n * (z / n)) with ((x * x + y * y + z * z) / (n * n)) by (field; lra). rewrite <- EN. field. lra.
  - pose proof (sin2_cos2 t) as T. pose proof (sin2_cos2 p) as P. unfold Rsqr in *.
    replace (cos t * sin p * (cos t * sin p) + sin t * sin p * (sin t * sin p) + cos p * cos p)
      with ((sin t * sin t + cos t * cos t) * (sin p * sin p) + cos p * cos p) by ring. rewrite T. lra.
Qed.
Lemma Rabs_scale k x : 0 <= k -> Rabs (k * x) = k * Rabs x.
Proof. intros H. rewrite Rabs_mult, (Rabs_right k) by lra. reflexivity. Qed.
Lemma scale_zone a u m : 0 < a -> nonzero u -> 0 <= m <= 1 -> in_zone a (vscale (k_max a u * m) u) /\ (m = 1 -> on_boundary a (vscale (k_max a u * m) u)).
Proof.
  intros Ha Hu Hm. destruct (k_max_spec a u Ha Hu) as (K0 & K1 & K2 & K3).
  assert (Z : in_zone a (vscale (k_max a u * m) u)).
  { assert (0 <= k_max a u * m) by (apply Rmult_le_pos; lra). assert (K : k_max a u * m <= k_max a u) by (rewrite <- (Rmult_1_r (k_max a u)) at 2; apply Rmult_le_compat_l; lra).
    unfold in_zone, vscale, vx, vy, vz. cbn [fst snd]. rewrite !Rabs_scale by assumption. fold (vx u). fold (vy u). fold (vz u).
    change (fst (fst u)) with (vx u). change (snd (fst u)) with (vy u). change (snd u) with (vz u).
    pose proof (Rabs_pos (vx u)). pose proof (Rabs_pos (vy u)). pose proof (Rabs_pos (vz u)).
    assert (M : Rabs (vx u) <= largest u /\ Rabs (vy u) <= largest u /\ Rabs (vz u) <= largest u).
    { unfold largest. split; [apply Rmax_l|]. split; (eapply Rle_trans; [|apply Rmax_r]); [apply Rmax_l|apply Rmax_r]. }
    destruct M as (M1 & M2 & M3). unfold sum_abs in K2. set (k := k_max a u) in *. clearbody k.
    assert (B : forall x, 0 <= x <= largest u -> k * m * x <= 2 * PI / a).
    { intros x Hx. eapply Rle_trans; [|exact K1]. apply Rmult_le_compat; lra. }
    repeat split; try (apply B; lra).
    replace (k * m * Rabs (vx u) + k * m * Rabs (vy u) + k * m * Rabs (vz u)) with (k * m * (Rabs (vx u) + Rabs (vy u) + Rabs (vz u))) by ring.
    eapply Rle_trans; [|exact K2]. apply Rmult_le_compat_r; lra. }
  split; [exact Z|]. intros ->. split; [exact Z|]. rewrite Rmult_1_r. unfold vscale, vx, vy, vz. cbn [fst snd]. rewrite !Rabs_scale by lra.
  change (fst (fst u)) with (vx u). change (snd (fst u)) with (vy u). change (snd u) with (vz u).
  destruct K3 as [K3|K3].
  - unfold largest in K3. unfold Rmax in K3. repeat destruct (Rle_dec _ _) in K3; auto.
  - right. right. right. unfold sum_abs in K3. lra.
Qed.
(** For a fraction between 0 and 1 every point is in the first Brillouin zone; with fraction 1 the
    last one is on its boundary. *)
Theorem C164_zone : forall a t p fraction points vin, 0 < a -> 0 <= fraction <= 1 ->
  match vin with Some v => nonzero v | None => True end ->
  (forall k, In k (kvector a t p fraction points vin) -> in_zone a k) /\
  (fraction = 1 -> (2 <= points)%nat -> on_boundary a (nth (points - 1) (kvector a t p fraction points vin) (0, 0, 0))).
Proof.
  intros a t p fraction points vin Ha Hf Hv. pose proof (direction_unit t p vin Hv) as U. assert (NU : nonzero (direction t p vin)) by (unfold nonzero; lra).
  assert (HR : forall i, (i < points)%nat -> 0 <= nth i (linspace 0 fraction points) 0 <= fraction).
  { intros i Hi. rewrite linspace_nth by exact Hi. destruct (Nat.eq_dec points 1) as [->|N].
    - replace i with 0%nat by lia. cbn. unfold Rdiv. rewrite Rmult_0_r, Rmult_0_l. lra.
    - assert (0 < INR (points - 1)) by (apply lt_0_INR; lia). assert (INR i <= INR (points - 1)) by (apply le_INR; lia). pose proof (pos_INR i).
      replace (0 + (fraction - 0) * INR i / INR (points - 1)) with (fraction * (INR i / INR (points - 1))) by (field; lra).
      assert (0 <= INR i / INR (points - 1) <= 1).
      { split; [apply Rmult_le_pos; [lra|]; left; now apply Rinv_0_lt_compat|].
        apply (Rmult_le_reg_r (INR (points - 1))); [assumption|]. unfold Rdiv. rewrite Rmult_assoc, Rinv_l; lra. }
      nra. }
  unfold kvector. set (u := direction t p vin) in *. split.
  - intros k Hk. apply in_map_iff in Hk as (m & <- & Hm). apply (In_nth _ _ 0) in Hm as (i & Hi & <-). rewrite linspace_length in Hi.
    assert (HM : 0 <= nth i (linspace 0 fraction points) 0 <= 1) by (specialize (HR i Hi); lra). exact (proj1 (scale_zone a u _ Ha NU HM)).
  - intros -> Hp. set (f := fun m => vscale (k_max a u * m) u).
    rewrite (nth_indep _ _ (f 0)) by (rewrite map_length, linspace_length; lia). rewrite map_nth. unfold f.
    apply (proj2 (scale_zone a u _ Ha NU (HR (points - 1)%nat ltac:(lia)))). rewrite linspace_nth by lia.
    assert (0 < INR (points - 1)) by (apply lt_0_INR; lia). field. lra.
Qed.
(** The points are on a straight line from the centre, at equal distances. *)
Theorem C164_line : forall a t p fraction points vin, (2 <= points)%nat ->
  length (kvector a t p fraction points vin) = points /\
  nth 0 (kvector a t p fraction points vin) (1, 1, 1) = (0, 0, 0) /\
  forall i, (i < points)%nat ->
    nth i (kvector a t p fraction points vin) (1, 1, 1) =
    vscale (INR i / INR (points - 1)) (nth (points - 1) (kvector a t p fraction points vin) (1, 1, 1)).
Proof.
  intros a t p fraction points vin Hp. unfold kvector. set (u := direction t p vin). set (f := fun m => vscale (k_max a u * m) u).
  assert (N : forall i, (i < points)%nat -> nth i (map f (linspace 0 fraction points)) (1, 1, 1) = f (fraction * (INR i / INR (points - 1)))).
  { intros i Hi. rewrite (nth_indep _ _ (f 0)) by (rewrite map_length, linspace_length; lia). rewrite map_nth, linspace_nth by exact Hi. f_equal.
    assert (0 < INR (points - 1)) by (apply lt_0_INR; lia). field. lra. }
  split; [now rewrite map_length, linspace_length|]. split.
  - rewrite N by lia. unfold f, vscale. cbn [INR]. unfold Rdiv. rewrite !Rmult_0_l, !Rmult_0_r, !Rmult_0_l. reflexivity.
  - intros i Hi. rewrite !N by lia. assert (P : 0 < INR (points - 1)) by (apply lt_0_INR; lia). unfold f, vscale, vx, vy, vz. cbn [fst snd].
    apply vec_eq; field; lra.
Qed.
(** Only the direction of the vector given counts, not its length. *)
Theorem C164_direction : forall a t p t' p' fraction points v s, 0 < s -> nonzero v ->
  kvector a t p fraction points (Some (vscale s v)) = kvector a t' p' fraction points (Some v).
Proof.
  intros a t p t' p' fraction points v s Hs Hv. assert (E : direction t p (Some (vscale s v)) = direction t' p' (Some v)); [|unfold kvector; now rewrite E].
  destruct v as [[x y] z]. unfold direction, vscale, vnorm, vdot, vx, vy, vz. cbn [fst snd]. unfold nonzero, vdot, vx, vy, vz in Hv. cbn [fst snd] in Hv.
  replace (s * x * (s * x) + s * y * (s * y) + s * z * (s * z)) with (s * s * (x * x + y * y + z * z)) by ring.
  rewrite sqrt_mult by nra. rewrite sqrt_square by lra. assert (0 < sqrt (x * x + y * y + z * z)) by (now apply sqrt_lt_R0).
  apply vec_eq; field; lra.
Qed.
(** The critical points are on the boundary, except the centre. *)
Theorem C164_critical : forall a name k, 0 < a -> critical_point a name = Ok k ->
  in_zone a k /\ (name <> "Gamma"%string -> on_boundary a k) /\ (name = "Gamma"%string -> k = (0, 0, 0)).
Proof.
  intros a name k Ha H. pose proof PI_RGT_0 as HP. assert (Hpa : 0 < PI / a) by (apply Rdiv_lt_0_compat; lra).
  assert (E2 : 2 * PI / a = 2 * (PI / a)) by (field; lra). assert (E3 : 3 * PI / a = 3 * (PI / a)) by (field; lra).
  assert (AB : forall m, 0 <= m -> Rabs (PI / a * m) = PI / a * m) by (intros m Hm; apply Rabs_right; nra).
  unfold critical_point in H.
  destruct (String.eqb_spec name "Gamma") as [->|N].
  { assert (EK : k = (0, 0, 0)) by congruence. subst k. split; [|split; [congruence|reflexivity]].
    unfold in_zone, vx, vy, vz. cbn [fst snd]. rewrite Rabs_R0, E2, E3. lra. }
  split; [|split; [|intros E; contradiction]].
  all: repeat (destruct (String.eqb name _) in H;
     [injection H as <-; try intros _; unfold on_boundary, in_zone, vscale, vx, vy, vz; cbn [fst snd]; rewrite !AB by lra; rewrite E2, E3; 
      repeat split; try lra|]); try discriminate.
  all: first [left; lra|right; left; lra|right; right; left; lra|right; right; right; lra].
Qed.

(** * C165 *)
Definition distance (u v : vec) : R := vnorm (vsub v u).
(** Length of the way along a list of points. *)
Fixpoint way (ps : list vec) : R :=
  match ps with p :: ((p' :: _) as r) => distance p p' + way r | _ => 0 end.
Lemma way_cons x y l : way (x :: y :: l) = distance x y + way (y :: l).
Proof. reflexivity. Qed.
Lemma way_snoc ps p t : ps <> [] -> last ps p = p -> way (ps ++ [t]) = way ps + distance p t.
Proof.
  intros N HL. induction ps as [|x ps IH]; [now elim N|]. destruct ps as [|y ps].
  - cbn in HL. subst x. cbn. ring.
  - change ((x :: y :: ps) ++ [t]) with (x :: y :: (ps ++ [t])). rewrite !way_cons. change (y :: ps ++ [t]) with ((y :: ps) ++ [t]).
    change (last (x :: y :: ps) p) with (last (y :: ps) p) in HL. rewrite IH; [ring|discriminate|exact HL].
Qed.
Lemma distance_scale a u v : 0 < a -> vnorm (vscale a (vsub v u)) = a * distance u v.
Proof.
  intros Ha. unfold distance, vnorm, vdot, vscale, vsub, vx, vy, vz. cbn [fst snd].
  set (x := fst (fst v) - fst (fst u)). set (y := snd (fst v) - snd (fst u)). set (z := snd v - snd u).
  replace (a * x * (a * x) + a * y * (a * y) + a * z * (a * z)) with (a * a * (x * x + y * y + z * z)) by ring.
  rewrite sqrt_mult; [rewrite sqrt_square by lra; reflexivity|nra|]. nra.
Qed.
Lemma distance_pos u v : 0 <= distance u v. Proof. apply sqrt_pos. Qed.
Lemma tl_linspace_length g h n : length (tl (linspace g h n)) = (n - 1)%nat.
Proof. rewrite <- (linspace_length g h n) at 2. destruct (linspace g h n); cbn; lia. Qed.
Lemma tl_linspace_nth g h n i : (S i < n)%nat -> nth i (tl (linspace g h n)) 0 = g + (h - g) * INR (S i) / INR (n - 1).
Proof.
  intros H. rewrite <- linspace_nth by exact H. pose proof (linspace_length g h n). destruct (linspace g h n); cbn in *; [lia|reflexivity].
Qed.
Lemma last_nth_ (l : list R) d : last l d = nth (length l - 1) l d.
Proof. induction l as [|x [|y l] IH]; [reflexivity|reflexivity|]. change (last (x :: y :: l) d) with (last (y :: l) d). rewrite IH. cbn [length]. rewrite !Nat.sub_succ, !Nat.sub_0_r. reflexivity. Qed.

Section Walk.
Context (a : R) (m : nat) (Ha : 0 < a) (Hm : (1 <= m)%nat).
(** What holds after the points [ps] have been visited, [m] steps for each part of the way. *)
Record visited (ps : list vec) (w : walk) : Prop := Visited
  { v_n : ps <> [];
    v_k : w_k w = last ps (w_k w);
    v_len : length (w_coords w) = ((length ps - 1) * m + 1)%nat;
    v_len' : length (w_graph w) = length (w_coords w);
    v_points : forall i, (i < length ps)%nat -> nth (i * m) (w_coords w) (0, 0, 0) = nth i ps (0, 0, 0);
    v_way : forall i, (i < length ps)%nat -> nth (i * m) (w_graph w) 0 = a * way (firstn (S i) ps);
    v_ticks : w_ticks w = map (fun i => a * way (firstn (S i) ps)) (seq 0 (length ps));
    v_near : forall i, (S i < length (w_coords w))%nat ->
      nth (S i) (w_graph w) 0 - nth i (w_graph w) 0 = a * distance (nth i (w_coords w) (0, 0, 0)) (nth (S i) (w_coords w) (0, 0, 0)) }.
Lemma seg_distance k t s s' : s <= s' -> distance (vadd k (vscale s (vsub t k))) (vadd k (vscale s' (vsub t k))) = (s' - s) * distance k t.
Proof.
  intros H. unfold distance, vnorm, vdot, vadd, vscale, vsub, vx, vy, vz. cbn [fst snd].
  set (x := fst (fst t) - fst (fst k)). set (y := snd (fst t) - snd (fst k)). set (z := snd t - snd k).
  match goal with |- sqrt ?e = _ => replace e with ((s' - s) * (s' - s) * (x * x + y * y + z * z)) by ring end.
  rewrite sqrt_mult; [rewrite sqrt_square by lra; reflexivity|nra|nra].
Qed.
Lemma visited_step ps w t : visited ps w -> visited (ps ++ [t]) (walk_step a (S m) w t).
Proof.
  intros [N K L L' P W T D]. set (n := length ps) in *. assert (Hn : (1 <= n)%nat) by (unfold n; destruct ps; [now elim N|cbn; lia]).
  assert (NK : nth (n - 1) ps (0, 0, 0) = w_k w).
  { rewrite K. clear - N. unfold n. induction ps as [|x [|y ps] IH]; [now elim N|reflexivity|]. cbn [length] in *.
    change (last (x :: y :: ps) (w_k w)) with (last (y :: ps) (w_k w)). rewrite <- IH by discriminate. cbn [length]. rewrite !Nat.sub_succ, !Nat.sub_0_r. reflexivity. }
  assert (Hlast : nth ((n - 1) * m) (w_coords w) (0, 0, 0) = w_k w) by (rewrite P by lia; exact NK).
  set (g := last (w_graph w) 0). assert (Eg : g = nth ((n - 1) * m) (w_graph w) 0).
  { unfold g. rewrite last_nth_, L', L. rewrite Nat.add_sub. reflexivity. }
  assert (Ew : g = a * way ps). { rewrite Eg, W by lia. do 2 f_equal. apply firstn_all2. lia. }
  set (seg := map (fun s => vadd (w_k w) (vscale s (vsub t (w_k w)))) (tl (linspace 0 1 (S m)))).
  assert (LS : length seg = m) by (unfold seg; rewrite map_length, tl_linspace_length; lia).
  set (dist := distance (w_k w) t). assert (Hd : 0 <= dist) by apply distance_pos.
  assert (EW : vnorm (vscale a (vsub t (w_k w))) = a * dist) by (now apply distance_scale).
  assert (PM : 0 < INR m) by (apply lt_0_INR; lia).
  assert (NS : forall j, (j < m)%nat -> nth j seg (0, 0, 0) = vadd (w_k w) (vscale (INR (S j) / INR m) (vsub t (w_k w)))).
  { intros j Hj. unfold seg. set (f := fun s => vadd (w_k w) (vscale s (vsub t (w_k w)))).
    rewrite (nth_indep _ _ (f 0)) by (rewrite map_length, tl_linspace_length; lia). rewrite map_nth. unfold f. do 2 f_equal.
    rewrite tl_linspace_nth by lia. rewrite Nat.sub_succ, Nat.sub_0_r. field. lra. }
  set (gs := tl (linspace g (g + a * dist) (S m))). assert (LG : length gs = m) by (unfold gs; rewrite tl_linspace_length; lia).
  assert (NG : forall j, (j < m)%nat -> nth j gs 0 = g + a * dist * (INR (S j) / INR m)).
  { intros j Hj. unfold gs. rewrite tl_linspace_nth by lia. rewrite Nat.sub_succ, Nat.sub_0_r. field. lra. }
  unfold walk_step. rewrite EW. fold g. fold seg. fold gs.
  assert (LN : length (ps ++ [t]) = S n) by (rewrite app_length; cbn; fold n; lia).
  assert (WT : way (ps ++ [t]) = way ps + dist) by (apply way_snoc; [exact N|now symmetry]).
  assert (Elast : nth (m - 1) seg (0, 0, 0) = t).
  { rewrite NS by lia. replace (S (m - 1)) with m by lia. unfold Rdiv. rewrite Rinv_r by lra. destruct t as [[tx ty] tz].
    unfold vadd, vscale, vsub, vx, vy, vz. cbn [fst snd]. apply vec_eq; ring. }
  assert (Eglast : nth (m - 1) gs 0 = a * way (ps ++ [t])).
  { rewrite NG by lia. replace (S (m - 1)) with m by lia. unfold Rdiv. rewrite Rinv_r by lra. rewrite Ew, WT. ring. }
  constructor; cbn [w_k w_coords w_graph w_ticks].
  - destruct ps; discriminate.
  - rewrite last_last. reflexivity.
  - rewrite app_length, L, LS, LN. replace (S n - 1)%nat with (n - 1 + 1)%nat by lia. lia.
  - rewrite !app_length, L', LS, LG. reflexivity.
  - intros i Hi. rewrite LN in Hi. destruct (Nat.eq_dec i n) as [->|Ni].
    + rewrite (app_nth2 ps) by (fold n; lia). fold n. rewrite Nat.sub_diag. cbn [nth].
      rewrite app_nth2 by (rewrite L; nia). rewrite L. replace (n * m - ((n - 1) * m + 1))%nat with (m - 1)%nat by nia. exact Elast.
    + rewrite (app_nth1 ps) by (fold n; lia). rewrite app_nth1 by (rewrite L; nia). apply P. lia.
  - intros i Hi. rewrite LN in Hi. destruct (Nat.eq_dec i n) as [->|Ni].
    + rewrite (firstn_all2 (ps ++ [t])) by lia. rewrite app_nth2 by (rewrite L', L; nia). rewrite L', L.
      replace (n * m - ((n - 1) * m + 1))%nat with (m - 1)%nat by nia. exact Eglast.
    + rewrite firstn_app. fold n. replace (S i - n)%nat with 0%nat by lia. rewrite firstn_O, app_nil_r. rewrite app_nth1 by (rewrite L', L; nia). apply W. lia.
  - rewrite T, LN. rewrite seq_S, map_app. cbn [map Nat.add]. f_equal.
    + apply map_ext_in. intros i Hi. apply in_seq in Hi. rewrite firstn_app. fold n. replace (S i - n)%nat with 0%nat by lia.
      rewrite firstn_O, app_nil_r. reflexivity.
    + f_equal. rewrite (firstn_all2 (ps ++ [t])) by lia. rewrite last_nth_, app_length, LG, L', L.
      rewrite app_nth2 by (rewrite L', L; lia). rewrite L', L. replace ((n - 1) * m + 1 + m - 1 - ((n - 1) * m + 1))%nat with (m - 1)%nat by lia. exact Eglast.
  - intros i Hi. rewrite app_length, L, LS in Hi. destruct (lt_dec (S i) (length (w_coords w))) as [I1|I1].
    + rewrite !app_nth1 by (rewrite ?L'; lia). now apply D.
    + rewrite L in I1. set (j := (S i - ((n - 1) * m + 1))%nat). assert (Hj : (j < m)%nat) by lia.
      rewrite (app_nth2 (w_graph w)) by (rewrite L', L; lia). rewrite (@app_nth2 vec (w_coords w) seg (0, 0, 0) (S i)) by (rewrite L; lia). rewrite L', L. fold j.
      rewrite NG, NS by exact Hj. destruct (Nat.eq_dec j 0) as [E0|E0].
      * assert (Ei : i = ((n - 1) * m)%nat) by lia. rewrite (app_nth1 (w_graph w)) by (rewrite L', L; lia). rewrite (app_nth1 (w_coords w)) by (rewrite L; lia).
        rewrite Ei, Hlast, <- Eg, E0. pose proof (seg_distance (w_k w) t 0 (INR 1 / INR m)) as SD.
        assert (KK : vadd (w_k w) (vscale 0 (vsub t (w_k w))) = w_k w).
        { destruct (w_k w) as [[kx ky] kz]. unfold vadd, vscale, vx, vy, vz. cbn [fst snd]. apply vec_eq; ring. }
        rewrite KK in SD. rewrite SD; [fold dist; ring|]. apply Rmult_le_pos; [cbn; lra|left; now apply Rinv_0_lt_compat].
      * rewrite (app_nth2 (w_graph w)) by (rewrite L', L; lia). rewrite (app_nth2 (w_coords w)) by (rewrite L; lia). rewrite L', L.
        replace (i - ((n - 1) * m + 1))%nat with (j - 1)%nat by lia. rewrite NG, NS by lia. replace (S (j - 1)) with j by lia.
        rewrite seg_distance; [fold dist; ring|]. apply Rmult_le_compat_r; [left; now apply Rinv_0_lt_compat|]. apply le_INR. lia.
Qed.
Lemma traverse_visited p ts : visited (p :: ts) (traverse a (S m) p ts).
Proof.
  unfold traverse. assert (B : visited [p] (Walk p [p] [0] [0])).
  { constructor; cbn [w_k w_coords w_graph w_ticks length]; try reflexivity; try discriminate; try lia.
    - intros [|i] Hi; [reflexivity|lia].
    - intros [|i] Hi; [cbn; ring|lia].
    - cbn. f_equal. ring. }
  change (p :: ts) with ([p] ++ ts). revert B. generalize (Walk p [p] [0] [0]) as w. generalize [p] as ps. clear p.
  induction ts as [|t ts IH]; intros ps w B; cbn [fold_left]; [rewrite app_nil_r; exact B|].
  replace (ps ++ t :: ts) with ((ps ++ [t]) ++ ts) by (rewrite <- app_assoc; reflexivity). apply IH. now apply visited_step.
Qed.
End Walk.
Lemma mapR_spec {A B} (f : A -> res B) l ys : mapR_ f l = Ok ys <-> Forall2 (fun x y => f x = Ok y) l ys.
Proof.
  revert ys. induction l as [|x l IH]; intros ys; cbn [mapR_]; split; intros H.
  - injection H as <-. constructor.
  - inversion H. reflexivity.
  - destruct (f x) as [y|] eqn:E; [|discriminate]. cbn [bindR] in H. destruct (mapR_ f l) as [ys'|] eqn:E'; [|discriminate].
    cbn [bindR] in H. injection H as <-. constructor; [exact E|]. now apply IH.
  - inversion H as [|? y ? ys' E F]; subst. rewrite E. cbn [bindR]. apply IH in F. rewrite F. reflexivity.
Qed.
(** The names in use, and what they are called in the graph. *)
Definition names : list string := ["Gamma"; "X"; "K"; "L"; "W"; "U"]%string.
Definition label (name : string) : string := if String.eqb name "Gamma" then "$\Gamma$"%string else name.
Lemma label_ok name : In name names -> label_of name = Ok (label name).
Proof. intros H. cbn in H. repeat (destruct H as [<-|H]; [reflexivity|]). contradiction. Qed.
Lemma labels_ok order : Forall (fun x => In x names) order -> mapR_ label_of order = Ok (map label order).
Proof. induction 1 as [|x l H F IH]; [reflexivity|]. cbn [mapR_ map]. rewrite (label_ok x H). cbn [bindR]. rewrite IH. reflexivity. Qed.
Lemma last_any (l : list R) : forall x y, l <> [] -> last l x = last l y.
Proof. induction l as [|u [|v l] IH]; intros x y H; [now elim H|reflexivity|]. change (last (v :: l) x = last (v :: l) y). apply IH. discriminate. Qed.
Lemma fold_max_last l : forall x, (forall y, In y l -> y <= last l x) -> x <= last l x -> fold_left Rmax l x = last l x.
Proof.
  induction l as [|y l IH]; intros x H Hx; [reflexivity|]. cbn [fold_left]. destruct l as [|z l].
  - cbn [fold_left last] in *. apply Rmax_right. exact Hx.
  - change (last (y :: z :: l) x) with (last (z :: l) x) in *. rewrite (last_any _ x (Rmax x y)) by discriminate.
    rewrite (last_any _ x (Rmax x y)) in Hx by discriminate. apply IH.
    + intros u Hu. rewrite (last_any _ (Rmax x y) x) by discriminate. apply H. now right.
    + apply Rmax_lub; [exact Hx|]. rewrite (last_any _ (Rmax x y) x) by discriminate. apply H. now left.
Qed.
Lemma chain_mono (g : list R) : (forall i, (S i < length g)%nat -> nth i g 0 <= nth (S i) g 0) ->
  forall i j, (i <= j)%nat -> (j < length g)%nat -> nth i g 0 <= nth j g 0.
Proof.
  intros H i j Hij. induction Hij as [|j Hij IH]; intros Hj; [lra|]. eapply Rle_trans; [apply IH; lia|]. now apply H.
Qed.
(** With at least two steps for each part of the way: every part has the same number of points and
    ends at its critical point. The position in the graph is the length of the way from the start,
    as a fraction of the whole, and so are the ticks, with their labels; neighbouring points are as
    far apart in the graph as in the zone. *)
Theorem C165_walk : forall a steps order ps, 0 < a -> (2 <= steps)%nat -> order <> [] -> Forall (fun x => In x names) order ->
  Forall2 (fun x k => critical_point a x = Ok k) order ps -> 0 < way ps ->
  exists coords graph ticks, traverse_brillouin a order steps = Ok (coords, map Some graph, combine (map Some ticks) (map label order)) /\
    let n := length order in
    length coords = ((n - 1) * (steps - 1) + 1)%nat /\ length graph = length coords /\ length ticks = n /\
    (forall i, (i < n)%nat -> nth (i * (steps - 1)) coords (0, 0, 0) = nth i ps (0, 0, 0) /\
       nth (i * (steps - 1)) graph 0 = way (firstn (S i) ps) / way ps /\ nth i ticks 0 = way (firstn (S i) ps) / way ps) /\
    (forall i, (S i < length coords)%nat -> nth (S i) graph 0 - nth i graph 0 = distance (nth i coords (0, 0, 0)) (nth (S i) coords (0, 0, 0)) / way ps) /\
    nth 0 graph 1 = 0 /\ nth (length graph - 1) graph 0 = 1 /\
    (forall i j, (i <= j)%nat -> (j < length graph)%nat -> nth i graph 0 <= nth j graph 0).
Proof.
  intros a steps order ps Ha Hs No Hn Hp Hw. assert (EL : length ps = length order) by (clear - Hp; induction Hp; cbn; congruence).
  destruct steps as [|m]; [lia|]. assert (Hm : (1 <= m)%nat) by lia. replace (S m - 1)%nat with m by lia.
  assert (M1 : mapR_ (critical_point a) order = Ok ps) by (now apply mapR_spec). assert (M2 := labels_ok order Hn).
  destruct ps as [|p ts]; [destruct order; [now elim No|discriminate]|].
  set (w := traverse a (S m) p ts). set (scale := fold_left Rmax (w_graph w) (hd 0 (w_graph w))).
  assert (EB : traverse_brillouin a order (S m) = Ok (w_coords w, map (over_scale scale) (w_graph w), combine (map (over_scale scale) (w_ticks w)) (map label order))).
  { unfold traverse_brillouin. rewrite M1, M2. destruct order; [now elim No|reflexivity]. }
  destruct (traverse_visited a m Ha Hm p ts) as [VN VK VL VL' VP VW VT VD]. fold w in VK, VL, VL', VP, VW, VT, VD. set (ps := p :: ts) in *.
  rewrite EL in VL, VP, VW, VT. set (n := length order) in *. assert (Hn1 : (1 <= n)%nat) by (unfold n; destruct order; [now elim No|cbn; lia]).
  assert (GL : length (w_graph w) = ((n - 1) * m + 1)%nat) by congruence.
  assert (MG : forall i j, (i <= j)%nat -> (j < length (w_graph w))%nat -> nth i (w_graph w) 0 <= nth j (w_graph w) 0).
  { apply chain_mono. intros i Hi. rewrite VL' in Hi. specialize (VD i Hi). pose proof (distance_pos (nth i (w_coords w) (0, 0, 0)) (nth (S i) (w_coords w) (0, 0, 0))). nra. }
  assert (GE : nth (length (w_graph w) - 1) (w_graph w) 0 = a * way ps).
  { rewrite GL, Nat.add_sub, VW by lia. do 2 f_equal. apply firstn_all2. lia. }
  assert (G0 : nth 0 (w_graph w) 0 = 0). { assert (Z0 := VW 0%nat Hn1). cbn [Nat.mul] in Z0. rewrite Z0. unfold ps. cbn. ring. }
  assert (ES : scale = a * way ps).
  { unfold scale. assert (NG : w_graph w <> []) by (intros E; rewrite E in GL; revert GL; clear; cbn [length]; lia).
    assert (LI : forall l x y, l <> [] -> last l x = last l y :> R).
    { clear. induction l as [|u [|v l] IH]; intros x y H; [now elim H|reflexivity|]. change (last (v :: l) x = last (v :: l) y). apply IH. discriminate. }
    assert (LE : last (w_graph w) (hd 0 (w_graph w)) = a * way ps) by (rewrite (LI _ _ 0 NG), last_nth_; exact GE).
    rewrite fold_max_last; [exact LE| |].
    - intros y Hy. rewrite LE, <- GE. apply (In_nth _ _ 0) in Hy as (i & Hi & <-). apply MG; lia.
    - rewrite LE. assert (EH : hd 0 (w_graph w) = nth 0 (w_graph w) 0) by (destruct (w_graph w); reflexivity). rewrite EH, G0.
      apply Rmult_le_pos; lra. }
  assert (PS : 0 < scale) by (rewrite ES; apply Rmult_lt_0_compat; lra).
  assert (OS : forall l, map (over_scale scale) l = map Some (map (fun x => x / scale) l)).
  { intros l. rewrite map_map. apply map_ext. intros x. unfold over_scale. destruct (Req_EM_T scale 0); [lra|reflexivity]. }
  assert (ND : forall l i, nth i (map (fun x => x / scale) l) 0 = nth i l 0 / scale).
  { intros l i. replace 0 with (0 / scale) at 1 by (field; lra). apply (map_nth (fun x => x / scale)). }
  exists (w_coords w), (map (fun x => x / scale) (w_graph w)), (map (fun x => x / scale) (w_ticks w)).
  split; [rewrite EB, !OS; reflexivity|]. cbv zeta. rewrite !map_length.
  split; [exact VL|]. split; [exact VL'|]. split; [rewrite VT, map_length, seq_length; reflexivity|].
  assert (RS : forall x, a * x / scale = x / way ps) by (intros x; rewrite ES; field; lra).
  split.
  { intros i Hi. split; [now apply VP|]. rewrite !ND. split; [rewrite VW by exact Hi; apply RS|]. rewrite VT.
    set (f := fun i => a * way (firstn (S i) ps)). rewrite (nth_indep _ 0 (f 0%nat)) by (rewrite map_length, seq_length; exact Hi).
    rewrite map_nth, seq_nth by exact Hi. unfold f. cbn [Nat.add]. apply RS. }
  split. { intros i Hi. rewrite !ND. rewrite <- RS, <- VD by exact Hi. field. lra. }
  split. { rewrite (nth_indep _ 1 0) by (rewrite map_length, GL, Nat.add_1_r; apply Nat.lt_0_succ). rewrite ND, G0. field. lra. }
  split. { rewrite ND, GE, <- ES. field. lra. }
  intros i j Hij Hj. rewrite !ND. apply Rmult_le_compat_r; [left; now apply Rinv_0_lt_compat|]. now apply MG.
Qed.
(** With one step there is nothing but the first point, and no positions at all; so too if the way
    has no length. *)
Theorem C165_single_refuted : forall a order, order <> [] -> Forall (fun x => In x names) order ->
  exists k ticks, traverse_brillouin a order 1 = Ok ([k], [None], ticks) /\ length ticks = length order /\ forall t, In t ticks -> fst t = None.
Proof.
  intros a order No Hn.
  assert (M1 : exists ps, mapR_ (critical_point a) order = Ok ps /\ length ps = length order).
  { clear No. induction Hn as [|x l H F (ps & IH & LH)]; [exists []; split; reflexivity|]. cbn [mapR_].
    assert (E : exists k, critical_point a x = Ok k) by (cbn in H; repeat (destruct H as [<-|H]; [eexists; reflexivity|]); contradiction).
    destruct E as [k ->]. cbn [bindR]. rewrite IH. cbn [bindR]. eexists. split; [reflexivity|]. cbn. congruence. }
  destruct M1 as (ps & M1 & L1). assert (M2 := labels_ok order Hn). destruct ps as [|p ts]; [destruct order; [now elim No|discriminate]|].
  assert (W : forall ts w, w_coords w = [p] -> w_graph w = [0] -> Forall (fun x => x = 0) (w_ticks w) ->
     let w' := fold_left (walk_step a 1) ts w in w_coords w' = [p] /\ w_graph w' = [0] /\ Forall (fun x => x = 0) (w_ticks w') /\
       length (w_ticks w') = (length (w_ticks w) + length ts)%nat).
  { clear. induction ts as [|t ts IH]; intros w E1 E2 E3; cbn [fold_left].
    - cbv zeta. repeat split; auto; cbn; lia.
    - destruct (IH (walk_step a 1 w t)) as (A & B & C & D).
      + unfold walk_step. cbn [w_coords]. rewrite E1. reflexivity.
      + unfold walk_step. cbn [w_graph]. rewrite E2. reflexivity.
      + unfold walk_step. cbn [w_ticks]. apply Forall_app. split; [exact E3|]. rewrite E2. repeat constructor.
      + cbv zeta in *. repeat split; auto. rewrite D. unfold walk_step. cbn [w_ticks]. rewrite app_length. cbn. lia. }
  destruct (W ts (Walk p [p] [0] [0]) eq_refl eq_refl ltac:(repeat constructor)) as (A & B & C & D). fold (traverse a 1 p ts) in A, B, C, D.
  set (w := traverse a 1 p ts) in *.
  assert (EB : traverse_brillouin a order 1 = Ok (w_coords w, map (over_scale 0) (w_graph w), combine (map (over_scale 0) (w_ticks w)) (map label order))).
  { unfold traverse_brillouin. rewrite M1, M2. destruct order; [now elim No|]. cbn [bindR]. fold w. rewrite B. cbn [hd fold_left]. rewrite (Rmax_left 0 0) by lra. reflexivity. }
  assert (O0 : forall x, over_scale 0 x = None) by (intros x; unfold over_scale; destruct (Req_EM_T 0 0); [reflexivity|lra]).
  exists p. eexists. split; [rewrite EB, A, B; cbn [map]; rewrite O0; reflexivity|]. split.
  - rewrite combine_length, !map_length, D. cbn [w_ticks length] in *. lia.
  - intros [x l] Ht. apply in_combine_l in Ht. apply in_map_iff in Ht as (y & <- & _). apply O0.
Qed.
(** An unknown name, or no name. *)
Theorem C165_names : forall a steps, traverse_brillouin a [] steps = Err IndexError /\
  forall order, ~ Forall (fun x => In x names) order -> order <> [] -> traverse_brillouin a order steps = Err KeyError.
Proof.
  intros a steps. split; [reflexivity|]. intros order H N.
  assert (E : mapR_ (critical_point a) order = Err KeyError).
  { clear N. induction order as [|x l IH]; [elim H; constructor|]. cbn [mapR_]. destruct (in_dec string_dec x names) as [I|I].
    - assert (E : exists k, critical_point a x = Ok k) by (cbn in I; repeat (destruct I as [<-|I]; [eexists; reflexivity|]); contradiction).
      destruct E as [k ->]. cbn [bindR]. rewrite IH; [reflexivity|]. intros F. apply H. now constructor.
    - assert (E : critical_point a x = Err KeyError); [|now rewrite E]. unfold critical_point.
      repeat match goal with |- context [String.eqb x ?s] => destruct (String.eqb_spec x s) as [->|]; [exfalso; apply I; cbn; tauto|] end. reflexivity. }
  unfold traverse_brillouin. rewrite E. destruct order; [now elim N|reflexivity].
Qed.

(** * Examples *)
Example C164_example : nonzero (1, 1, 0) /\ in_zone 1 (vscale PI (1, 1, 1)) /\ ~ in_zone 1 (vscale PI (3, 0, 0)) /\ length (kvector 1 0 PI 1 50 None) = 50%nat.
Proof.
  pose proof PI_RGT_0. split; [unfold nonzero, vdot, vx, vy, vz; cbn [fst snd]; lra|].
  split; [unfold in_zone, vscale, vx, vy, vz; cbn [fst snd]; rewrite !Rabs_right by lra; lra|].
  split; [unfold in_zone, vscale, vx, vy, vz; cbn [fst snd]; rewrite (Rabs_right (PI * 3)) by lra; lra|]. apply C164_line. lia.
Qed.
(** The default order of the function. *)
Example C165_example : exists ps, Forall2 (fun x k => critical_point 1 x = Ok k) ["L"; "Gamma"; "X"; "W"; "K"; "Gamma"]%string ps /\ 0 < way ps /\
  Forall (fun x => In x names) ["L"; "Gamma"; "X"; "W"; "K"; "Gamma"]%string.
Proof.
  eexists. split; [repeat constructor|]. split; [|repeat constructor; cbn; tauto].
  pose proof PI_RGT_0. rewrite !way_cons. apply Rplus_lt_le_0_compat.
  - unfold distance, vnorm. apply sqrt_lt_R0. unfold vdot, vsub, vscale, vx, vy, vz. cbn [fst snd]. nra.
  - repeat (apply Rplus_le_le_0_compat; [apply distance_pos|]). cbn [way]. lra.
Qed.

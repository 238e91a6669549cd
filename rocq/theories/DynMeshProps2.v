(** C196, continued: the values at the new nodes, and what goes wrong. *)
From Coq Require Import Reals List Bool Arith ZArith Lia Lra Sorted.
From Verif Require Import Common NumModel DynMeshModel DynMeshProps.
From Coq Require Import List.
Import ListNotations.
Open Scope R_scope.

(** * Specification *)
(** [p] and [q] are neighbours in the mesh [X]. *)
Definition neighbours (X : list node) (p q : node) : Prop := exists u v, X = u ++ p :: q :: v.

(** * Proofs *)
Lemma rising_app_inv l1 l2 : rising (l1 ++ l2) -> rising l1 /\ rising l2 /\ forall a b, In a l1 -> In b l2 -> a < b.
Proof.
  induction l1 as [|x l1 IH]; intros h.
  - split; [constructor|]. split; [exact h|]. intros a b [].
  - cbn in h. apply rising_cons in h as [h1 h2]. destruct (IH h1) as (i1 & i2 & i3).
    split; [apply rising_cons; split; [exact i1|]; intros; apply h2, in_app_iff; auto|]. split; [exact i2|].
    intros a b [<-|ha] hb; [apply h2, in_app_iff; auto|auto].
Qed.
Lemma skip_spec l : forall p x, nx p < x -> (exists q, In q l /\ x <= nx q) ->
  exists u p' q l', skip x p l = (p', q :: l') /\ p :: l = u ++ p' :: q :: l' /\ nx p' < x <= nx q.
Proof.
  induction l as [|a l IH]; intros p x hp (q & hq & hx); [destruct hq|]. cbn [skip]. destruct (Rlt_dec (nx a) x) as [h|h].
  - destruct (IH a x h) as (u & p' & q' & l' & h1 & h2 & h3).
    + exists q. split; [|exact hx]. destruct hq as [->|hq]; [lra|exact hq].
    + exists (p :: u), p', q', l'. split; [exact h1|]. split; [|exact h3]. cbn. f_equal. exact h2.
  - exists [], p, a, l. split; [reflexivity|]. split; [reflexivity|]. lra.
Qed.
(** What is found for a new node. *)
Definition good (X : list node) (e : R * place) : Prop :=
  match snd e with
  | At q => In q X /\ nx q = fst e
  | Between p q => neighbours X p q /\ nx p < fst e <= nx q
  end.
Lemma locate_spec X xs : rising (map nx X) -> forall pre p l, X = pre ++ p :: l -> rising (map fst xs) ->
  (forall x b, In (x, b) xs -> nx p < x /\ (exists q, In q l /\ x <= nx q) /\ (b = false -> exists q, In q l /\ nx q = x)) ->
  exists r, locate p l xs = Ok r /\ map fst r = map fst xs /\ Forall (good X) r.
Proof.
  intros hX. induction xs as [|[x b] xs IH]; intros pre p l eX hr H; [exists []; cbn; auto|].
  cbn [map fst] in hr. apply rising_cons in hr as [hr hx].
  destruct (H x b ltac:(left; auto)) as (h1 & h2 & h3).
  destruct (skip_spec l p x h1 h2) as (u & p' & q & l' & e1 & e2 & e3).
  assert (eX' : X = (pre ++ u) ++ p' :: q :: l') by (rewrite <- app_assoc, <- e2; exact eX).
  assert (hsub : forall z, In z l -> In z (q :: l') \/ nx z <= nx p').
  { intros z hz. assert (hz' : In z (p :: l)) by (right; exact hz). rewrite e2 in hz'. apply in_app_iff in hz' as [hz'|[<-|hz']]; auto; [|right; lra].
    right. left. rewrite eX', map_app in hX. apply rising_app_inv in hX as (_ & _ & hX).
    apply hX; [apply in_map, in_app_iff; auto|left; reflexivity]. }
  cbn [locate]. rewrite e1. destruct b.
  - destruct (IH (pre ++ u) p' (q :: l') eX' hr) as (r & r1 & r2 & r3).
    { intros y b hy. assert (hy' : x < y) by (apply hx, in_map_iff; exists (y, b); auto).
      destruct (H y b ltac:(right; exact hy)) as (g1 & (z & g2 & g3) & g4). split; [lra|]. split.
      - exists z. split; [|exact g3]. destruct (hsub z g2); [assumption|lra].
      - intros hb. destruct (g4 hb) as (w & w1 & w2). exists w. split; [|exact w2]. destruct (hsub w w1); [assumption|lra]. }
    rewrite r1. cbn [bindR]. eexists. split; [reflexivity|]. split; [cbn; rewrite r2; reflexivity|].
    constructor; [|exact r3]. cbn. split; [|exact e3]. exists (pre ++ u), l'. exact eX'.
  - destruct (h3 eq_refl) as (z & z1 & z2).
    assert (hq : nx q = x).
    { assert (hz : In z (q :: l')) by (destruct (hsub z z1); [assumption|lra]). destruct hz as [->|hz]; [exact z2|].
      assert (hlt : nx q < nx z). { rewrite eX', map_app in hX. apply rising_app_inv in hX as (_ & hX & _). cbn in hX. apply rising_cons in hX as [hX _]. apply rising_cons in hX as [_ hX]. apply hX, in_map, hz. }
      lra. }
    destruct (IH ((pre ++ u) ++ [p']) q l' ltac:(rewrite <- app_assoc; exact eX') hr) as (r & r1 & r2 & r3).
    { intros y b hy. assert (hy' : x < y) by (apply hx, in_map_iff; exists (y, b); auto).
      assert (hsub' : forall z, In z l -> y <= nx z -> In z l').
      { intros w hw hyw. destruct (hsub w hw) as [[<-|hw']|hw']; [lra|exact hw'|lra]. }
      destruct (H y b ltac:(right; exact hy)) as (g1 & (w & g2 & g3) & g4). split; [lra|]. split.
      - exists w. split; [apply hsub'; assumption|exact g3].
      - intros hb. destruct (g4 hb) as (v & v1 & v2). exists v. split; [apply hsub'; [exact v1|lra]|exact v2]. }
    rewrite r1. cbn [bindR]. eexists. split; [reflexivity|]. split; [cbn; rewrite r2; reflexivity|].
    constructor; [|exact r3]. cbn. split; [|exact hq]. rewrite eX'. apply in_app_iff. right; right; left; reflexivity.
Qed.

Lemma dynamic_spec G i y ms X : mesh_ok ms X -> exists r, dynamic_mesh G i y ms X = Ok r /\
  map fst r = map fst (new_mesh G i y ms X) /\ Forall (good X) r.
Proof.
  intros h. destruct (new_mesh_spec G i y ms X h) as (n1 & n2 & n3 & n4 & n5 & n6 & n7).
  destruct (ok_split ms X h) as (a & r & m & ms' & eX & em & hr & h1 & h2 & h3 & h4 & h5).
  unfold dynamic_mesh. set (o := new_mesh G i y ms X) in *. rewrite eX. rewrite eX in n2, n3.
  destruct o as [|[x b] o]; [discriminate|]. cbn in n7. subst b. cbn in n2. subst x.
  cbn [locate]. cbn [skip]. destruct (Rlt_dec (nx a) (nx a)) as [e|_]; [lra|].
  cbn [map fst] in n1. apply rising_cons in n1 as [n1 n1'].
  assert (hX : rising (map nx X)) by apply h.
  destruct (locate_spec X o hX [] a r eX n1) as (s & s1 & s2 & s3).
  { intros x b hin. assert (hx : nx a < x) by (apply n1', in_map_iff; exists (x, b); auto). split; [exact hx|]. split.
    - assert (hle : x <= last (map nx r) 0).
      { assert (el : last (map nx (a :: r)) 0 = last (map nx r) 0) by (destruct r; [contradiction|reflexivity]).
        rewrite <- el, <- n3. apply rising_last; [apply rising_cons; auto|]. right. apply in_map_iff. exists (x, b); auto. }
      assert (hin' : In (last (map nx r) 0) (map nx r)) by (apply last_in; destruct r; [contradiction|discriminate]).
      apply in_map_iff in hin' as (q & eq & hq). exists q. split; [exact hq|]. rewrite eq. exact hle.
    - intros ->. assert (hm : In x ms) by (apply n5; right; exact hin). rewrite em in hm. destruct hm as [e|hm]; [lra|].
      apply h4, in_map_iff in hm as (q & e & hq). exists q. auto. }
  rewrite s1. cbn [bindR]. eexists. split; [reflexivity|]. split; [cbn; rewrite s2; reflexivity|].
  rewrite eX in s3. constructor; [|exact s3]. split; [left; reflexivity|reflexivity].
Qed.

Lemma interpol_eq x x1 y1 x2 y2 : x1 <> x2 -> interpol x x1 y1 x2 y2 = y1 + (y2 - y1) * ((x - x1) / (x2 - x1)).
Proof. intros h. unfold interpol. field. lra. Qed.
Lemma neighbours_spec X p q : rising (map nx X) -> neighbours X p q ->
  In p X /\ In q X /\ nx p < nx q /\ forall z, In z X -> nx z <= nx p \/ nx q < nx z \/ z = q.
Proof.
  intros hX (u & v & ->). rewrite map_app in hX. apply rising_app_inv in hX as (_ & h1 & h2). cbn in h1.
  apply rising_cons in h1 as [h1 h3]. apply rising_cons in h1 as [_ h1].
  split; [apply in_app_iff; right; left; auto|]. split; [apply in_app_iff; right; right; left; auto|].
  split; [apply h3; left; reflexivity|].
  intros z hz. apply in_app_iff in hz as [hz|[<-|[<-|hz]]]; auto; [left; left; apply h2; [apply in_map, hz|left; auto]|left; lra|].
  right; left. apply h1, in_map, hz.
Qed.
Lemma rising_inj X p q : rising (map nx X) -> In p X -> In q X -> nx p = nx q -> p = q.
Proof.
  induction X as [|a X IH]; intros h hp hq e; [destruct hp|]. cbn in h. apply rising_cons in h as [h1 h2].
  destruct hp as [<-|hp], hq as [<-|hq]; auto.
  - specialize (h2 _ (in_map nx _ _ hq)). lra.
  - specialize (h2 _ (in_map nx _ _ hp)). lra.
Qed.

(** C196 (mesh): adapting a proper mesh always succeeds; the new mesh is strictly increasing, begins
    and ends where the old one does, and every master node is still a node, at the same position:
    the new mesh is again a proper one. *)
Theorem C196_mesh G i y ms X : mesh_ok ms X -> exists r, dynamic_mesh G i y ms X = Ok r /\
  rising (map fst r) /\ hd 0 (map fst r) = hd 0 (map nx X) /\ last (map fst r) 0 = last (map nx X) 0 /\ incl ms (map fst r).
Proof.
  intros h. destruct (dynamic_spec G i y ms X h) as (r & r1 & r2 & r3).
  destruct (new_mesh_spec G i y ms X h) as (n1 & n2 & n3 & n4 & _).
  exists r. rewrite r2. auto.
Qed.
(** C196 (values): a quantity at the new nodes is its value at the old node if there is one at the
    same place, stays within the bounds it had, and is exact if it was linear in the position. *)
Theorem C196_values G i y ms X r f : mesh_ok ms X -> dynamic_mesh G i y ms X = Ok r ->
  (forall e z, In e r -> In z X -> nx z = fst e -> value f e = f z) /\
  (forall lo hi, (forall z, In z X -> lo <= f z <= hi) -> forall e, In e r -> lo <= value f e <= hi) /\
  (forall al be, (forall z, In z X -> f z = al * nx z + be) -> forall e, In e r -> value f e = al * fst e + be).
Proof.
  intros h e. destruct (dynamic_spec G i y ms X h) as (r' & r1 & _ & r3). rewrite e in r1. injection r1 as <-.
  assert (hX : rising (map nx X)) by apply h. rewrite Forall_forall in r3.
  split; [|split].
  - intros [x pl] z he hz ez. specialize (r3 _ he). unfold good, value in *. cbn in *. destruct pl as [q|p q].
    + destruct r3 as [hq eq]. f_equal. apply (rising_inj X); auto. lra.
    + destruct r3 as [hn hb]. destruct (neighbours_spec X p q hX hn) as (hp & hq & hpq & hz').
      destruct (hz' z hz) as [h1|[h1| ->]]; [lra|lra|]. rewrite interpol_eq by lra. subst x. field. lra.
  - intros lo hi hb [x pl] he. specialize (r3 _ he). unfold good, value in *. cbn in *. destruct pl as [q|p q].
    + apply hb, r3.
    + destruct r3 as [hn hx]. destruct (neighbours_spec X p q hX hn) as (hp & hq & hpq & _).
      rewrite interpol_eq by lra. assert (b1 := hb p hp). assert (b2 := hb q hq).
      assert (ht : 0 <= (x - nx p) / (nx q - nx p) <= 1).
      { split; [apply Rlt_le, Rdiv_lt_0_compat; lra|]. apply Rmult_le_reg_r with (nx q - nx p); [lra|]. unfold Rdiv. rewrite Rmult_assoc, Rinv_l; lra. }
      set (t := (x - nx p) / (nx q - nx p)) in *. split; nra.
  - intros al be hf [x pl] he. specialize (r3 _ he). unfold good, value in *. cbn in *. destruct pl as [q|p q].
    + rewrite hf by apply r3. destruct r3 as [_ ->]. reflexivity.
    + destruct r3 as [hn hx]. destruct (neighbours_spec X p q hX hn) as (hp & hq & hpq & _).
      rewrite (hf p hp), (hf q hq). unfold interpol. field. lra.
Qed.

(** * The number of nodes *)
Lemma pieces_length a b f : length (pieces a b f) = S (Z.to_nat (f - 1)).
Proof. unfold pieces. rewrite app_length, map_length, seq_length. cbn. lia. Qed.
Lemma Rceil_eq x z : IZR z - 1 < x <= IZR z -> Rceil x = z.
Proof.
  intros h. assert (s := Rceil_spec x). assert (h1 : IZR (Rceil x) < IZR (z + 1)) by (rewrite plus_IZR; lra).
  assert (h2 : IZR z < IZR (Rceil x + 1)) by (rewrite plus_IZR; lra). apply lt_IZR in h1, h2. lia.
Qed.
Lemma smooth_rest_length y l : forall left, length (smooth_rest y left l) = length l.
Proof. induction l as [|[x b] l IH]; intros; cbn; [reflexivity|]. rewrite IH. reflexivity. Qed.
Lemma smooth_length y l : length (smooth_pass y l) = length l.
Proof. destruct l as [|[x b] l]; [reflexivity|]. cbn. rewrite smooth_rest_length. reflexivity. Qed.
Lemma new_length G i y ms X r : mesh_ok ms X -> dynamic_mesh G i y ms X = Ok r -> length r = length (refined G i ms X).
Proof.
  intros h e. destruct (dynamic_spec G i y ms X h) as (r' & r1 & r2 & _). rewrite e in r1. injection r1 as <-.
  rewrite <- (map_length fst), r2, map_length. unfold new_mesh.
  assert (it : forall k l, length (Nat.iter k (smooth_pass y) l) = length l).
  { induction k as [|k IH]; intros l; [reflexivity|]. cbn [Nat.iter nat_rect]. rewrite smooth_length. apply IH. }
  rewrite it, <- (map_length fst (flagged _ _)), flagged_fst. reflexivity.
Qed.
(** A node where all is constant. *)
Definition flat (x : R) : node := Node x 0 0 0 1 1 0.
Lemma two_ok a b : a < b -> mesh_ok [a; b] [flat a; flat b].
Proof.
  intros h. unfold mesh_ok. cbn. repeat split; try lia; try lra.
  1,2: apply rising_cons; split; [apply rising_cons; split; [constructor|intros ? []]|intros ? [<-|[]]; exact h].
  intros x hx. exact hx.
Qed.
(** C196 (size): an element that is the only one of the device is divided into 1 / Growth parts,
    rounded up, without regard to the smallest size. *)
Theorem C196_size G i y a b r : 0 < G -> a < b -> dynamic_mesh G i y [a; b] [flat a; flat b] = Ok r ->
  INR (length r) - 2 < 1 / G <= INR (length r) - 1.
Proof.
  intros hG hab e. rewrite (new_length _ _ _ _ _ _ (two_ok a b hab) e).
  cbn [refined map tl flat nx marks]. destruct (Rle_dec b b) as [_|h]; [|lra].
  cbn [combine sweep length]. rewrite pieces_length. unfold ceil_div. cbn [nx flat].
  destruct (Req_EM_T (b - a) 0) as [h|_]; [lra|].
  assert (e1 : (b - a) / G / (b - a) = 1 / G) by (field; lra). rewrite e1.
  assert (s := Rceil_spec (1 / G)). assert (hp : 0 < 1 / G) by (apply Rdiv_lt_0_compat; lra).
  assert (hz : (0 < Rceil (1 / G))%Z) by (apply lt_IZR; lra).
  set (z := Rceil (1 / G)) in *. rewrite !S_INR, INR_IZR_INZ, Z2Nat.id by lia. rewrite minus_IZR. lra.
Qed.
(** C196 (size, refuted): the new mesh need not fit in the arrays of 6001 nodes. *)
Theorem C196_size_refuted : exists G ms X, 0 < G /\ mesh_ok ms X /\ (Z.of_nat (length X) <= 6001)%Z /\
  forall i y r, dynamic_mesh G i y ms X = Ok r -> (6001 < Z.of_nat (length r))%Z.
Proof.
  exists (1 / 10000), [0; 1], [flat 0; flat 1]. split; [lra|]. split; [apply two_ok; lra|]. split; [cbn; lia|].
  intros i y r e. assert (h := C196_size (1 / 10000) i y 0 1 r ltac:(lra) ltac:(lra) e).
  apply lt_IZR. rewrite <- INR_IZR_INZ.
  assert (e1 : 1 / (1 / 10000) = 10000) by field. lra.
Qed.

(** * Interfaces *)
Lemma flat_variation x a b c : a <> b -> variation x (flat a) (flat b) (flat c) = 0.
Proof.
  intros h. unfold variation. cbn [flat nx psi fn fp nn pp]. rewrite !interpol_eq by exact h. rewrite ln_1.
  replace (0 + (0 - 0) * ((x - a) / (b - a))) with 0 by (field; lra). rewrite exp_0.
  replace (1 / 1) with 1 by field. rewrite ln_1, Rminus_0_r, Rabs_R0. repeat rewrite (Rmax_left 0 0) by lra. lra.
Qed.
(** A nanometre. *)
Definition nm : R := 1 / 10 ^ 9.
Lemma nm_pos : 0 < nm.
Proof. unfold nm. lra. Qed.
(** Two layers of one nanometre. *)
Definition two_layers : list node := [flat 0; flat nm; flat (2 * nm)].
Lemma three_ok : mesh_ok [0; nm; 2 * nm] two_layers.
Proof.
  assert (h := nm_pos). unfold mesh_ok. cbn. repeat split; try lia; try lra.
  1,2: repeat (apply rising_cons; split; [|intros ? hx; cbn in hx; intuition lra]); constructor.
  intros x hx. exact hx.
Qed.
Lemma two_layers_length i y r : dynamic_mesh 2 i y [0; nm; 2 * nm] two_layers = Ok r ->
  length r = S (S (S (Z.to_nat (cap nm i - 1)))).
Proof.
  intros e. assert (hn := nm_pos). rewrite (new_length _ _ _ _ _ _ three_ok e).
  unfold two_layers. cbn [refined map tl flat nx marks].
  destruct (Rle_dec nm nm) as [_|h]; [|lra]. cbn [marks]. destruct (Rle_dec (2 * nm) (2 * nm)) as [_|h]; [|lra].
  cbn [combine sweep]. set (o := added _ _ _ _ _ _ _ _ _ _ _).
  assert (eo : o = pieces 0 nm (cap nm i)).
  { unfold o, added. change (Node 0 0 0 0 1 1 0) with (flat 0). change (Node nm 0 0 0 1 1 0) with (flat nm).
    rewrite flat_variation by lra. unfold mn. cbn [nth nx flat].
    destruct (Rlt_dec 2 0) as [h|_]; [lra|]. rewrite !Rminus_0_r.
    destruct (Rle_dec (2 * nm) nm) as [h|_]; [lra|]. rewrite Rminus_diag_eq by reflexivity.
    destruct (Rle_dec (2 * 0) nm) as [_|h]; [|lra]. unfold ceil_div. destruct (Req_EM_T 0 0); [reflexivity|lra]. }
  cbn [length]. rewrite app_length, eo, !pieces_length. unfold ceil_div. cbn [nx flat].
  destruct (Req_EM_T (2 * nm - nm) 0) as [h|_]; [lra|].
  assert (e1 : (2 * nm - nm) / 2 / (2 * nm - nm) = 1 / 2) by (field; lra).
  rewrite e1, (Rceil_eq (1 / 2) 1) by lra. cbn. lia.
Qed.
(** C196 (interfaces, refuted): the new mesh is not determined by the program: at a master node inside
    the device the distance to the master node on the right is zero, and the number of parts is the
    ceiling of an infinite number. *)
Theorem C196_interface_refuted : exists G ms X, 0 < G /\ mesh_ok ms X /\ exists i i', forall y r r',
  dynamic_mesh G i y ms X = Ok r -> dynamic_mesh G i' y ms X = Ok r' -> length r = 3%nat /\ length r' = 7%nat.
Proof.
  exists 2, [0; nm; 2 * nm], two_layers. split; [lra|]. split; [exact three_ok|]. exists (- 2147483648)%Z, 2147483647%Z.
  intros y r r' h h'. apply two_layers_length in h, h'. rewrite h, h'. unfold cap.
  rewrite (Rceil_eq (nm / min_size) 5) by (unfold nm, min_size; lra). cbn. split; reflexivity.
Qed.

Example ex_mesh : exists r, dynamic_mesh 2 2147483647 0 [0; nm; 2 * nm] two_layers = Ok r /\ In nm (map fst r) /\ length r = 7%nat.
Proof.
  destruct (C196_mesh 2 2147483647 0 _ _ three_ok) as (r & e & _ & _ & _ & hi). exists r. split; [exact e|].
  split; [apply hi; cbn; auto|]. rewrite (two_layers_length _ _ _ e). unfold cap.
  rewrite (Rceil_eq (nm / min_size) 5) by (unfold nm, min_size; lra). reflexivity.
Qed.
(** The potential is kept at an interface and interpolated elsewhere. *)
Example ex_values : exists r, dynamic_mesh 2 2147483647 0 [0; nm; 2 * nm] two_layers = Ok r /\
  (forall e, In e r -> value nx e = fst e) /\ (forall e, In e r -> value psi e = 0).
Proof.
  destruct (C196_mesh 2 2147483647 0 _ _ three_ok) as (r & e & _). exists r. split; [exact e|]. split; intros x hx.
  - destruct (C196_values 2 2147483647 0 _ _ r nx three_ok e) as (_ & _ & h). rewrite (h 1 0); [lra|intros; lra|exact hx].
  - destruct (C196_values 2 2147483647 0 _ _ r psi three_ok e) as (_ & h & _).
    specialize (h 0 0). apply Rle_antisym; apply h; auto; intros z hz; cbn in hz; intuition (subst; cbn; lra).
Qed.
Example ex_size : exists r, dynamic_mesh (1 / 2) 0 0 [0; 1] [flat 0; flat 1] = Ok r /\ length r = 3%nat.
Proof.
  destruct (C196_mesh (1 / 2) 0 0 _ _ (two_ok 0 1 ltac:(lra))) as (r & e & _). exists r. split; [exact e|].
  assert (h := C196_size (1 / 2) 0 0 0 1 r ltac:(lra) ltac:(lra) e). replace (1 / (1 / 2)) with 2 in h by field.
  destruct h as [h1 h2]. assert (INR (length r) < INR 4) by (cbn; lra). assert (INR 2 < INR (length r)) by (cbn; lra).
  apply INR_lt in H, H0. lia.
Qed.

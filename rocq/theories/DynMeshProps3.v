(** C196, continued: which nodes are removed and how many are added. *)
From Coq Require Import Reals List Bool Arith ZArith Lia Lra Sorted.
From Verif Require Import Common NumModel DynMeshModel DynMeshProps DynMeshProps2.
From Coq Require Import List.
Import ListNotations.
Open Scope R_scope.

(** * Specification *)
(** At most this many nodes come after [p] when the old positions after it are [xs]: one for an
    element of up to 0.2 nm, and for a longer one its length in units of 0.2 nm, rounded up; the last
    element is divided into 1 / Growth parts, rounded up. *)
Fixpoint budget (G p : R) (xs : list R) : nat :=
  match xs with
  | [] => 0%nat
  | x :: r =>
      match r with
      | [] => Nat.max 1 (Z.to_nat (Rceil (1 / G)))
      | _ => (Nat.max 1 (Z.to_nat (Rceil ((x - p) / (2 / 10 ^ 10)))) + budget G x r)%nat
      end
  end.

(** * Proofs *)
Section Mesh.
Context (G : R) (inf_ceil : Z) (beyond : R).

Lemma added_length ms rg l b xt la p c t :
  (length (added G inf_ceil ms rg l b xt la p c t) <= Nat.max 1 (Z.to_nat (Rceil ((nx c - nx p) / (2 / 10 ^ 10)))))%nat.
Proof.
  assert (P : forall f, (length (pieces (nx p) (nx c) (cap (nx c - nx p) f)) <= Nat.max 1 (Z.to_nat (Rceil ((nx c - nx p) / (2 / 10 ^ 10)))))%nat).
  { intros f. rewrite pieces_length. unfold cap, min_size. set (z := Rceil _). assert (hz : ((if (z <? f) then z else f) <= z)%Z) by (destruct (Z.ltb_spec z f); lia).
    revert hz. generalize (if (z <? f)%Z then z else f) as w. intros; lia. }
  unfold added. repeat match goal with |- context [if ?d then _ else _] => destruct d end; try apply P; cbn [length]; lia.
Qed.
Lemma sweep_length ms rg rest : G <> 0 -> forall l xt la p, rising (nx p :: map (fun e => nx (fst e)) rest) ->
  (length (sweep G inf_ceil ms rg l xt la p rest) <= budget G (nx p) (map (fun e => nx (fst e)) rest))%nat.
Proof.
  intros hG. induction rest as [|[c b] r IH]; intros l xt la p hr; [cbn; lia|].
  apply rising_cons in hr as [hr hp]. assert (hc : nx p < nx c) by (apply hp; left; reflexivity).
  destruct r as [|[t tb] r].
  - cbn [sweep map budget]. rewrite pieces_length. unfold ceil_div. destruct (Req_EM_T (nx c - nx p) 0); [lra|].
    replace ((nx c - nx p) / G / (nx c - nx p)) with (1 / G) by (field; lra). lia.
  - cbn [sweep]. fold (sweep G inf_ceil ms rg). set (o := added _ _ _ _ _ _ _ _ _ _ _).
    rewrite app_length. assert (h1 : (length o <= Nat.max 1 (Z.to_nat (Rceil ((nx c - nx p) / (2 / 10 ^ 10)))))%nat) by apply added_length.
    specialize (IH (if b then l else S l) (last o xt) (match o with [] => la | _ => c end) c hr).
    change (map (fun e => nx (fst e)) ((c, b) :: (t, tb) :: r)) with (nx c :: map (fun e : node * bool => nx (fst e)) ((t, tb) :: r)).
    cbn [budget]. cbn [map fst] in *. apply Nat.add_le_mono; [exact h1|exact IH].
Qed.
Lemma added_nil ms rg l b xt la p c t : added G inf_ceil ms rg l b xt la p c t = [] -> b = true /\ variation xt la c t < G.
Proof.
  assert (P : forall a e f, pieces a e f <> []) by (intros a e f h; apply (f_equal (@length R)) in h; rewrite pieces_length in h; discriminate).
  unfold added. repeat match goal with |- context [if ?d then _ else _] => destruct d eqn:? end; intros e; try (exfalso; eapply P; exact e); [|discriminate].
  unfold join in *. destruct b; [|discriminate]. split; [reflexivity|]. destruct (Rlt_dec (variation xt la c t) G); [assumption|discriminate].
Qed.
Lemma sweep_removed ms rg rest : forall l la p, nx la <= nx p -> rising (nx p :: map (fun e => nx (fst e)) rest) ->
  forall u c b t tb v, rest = u ++ (c, b) :: (t, tb) :: v -> let o := sweep G inf_ceil ms rg l (nx la) la p rest in ~ In (nx c) o ->
  exists la', (la' = la \/ (In la' (map fst u) /\ In (nx la') o)) /\ nx la' < nx c /\ variation (nx la') la' c t < G.
Proof.
  induction rest as [|[c0 b0] r IH]; intros l la p hl hr u c b t tb v e; [destruct u; discriminate|].
  apply rising_cons in hr as [hr hp]. assert (hc : nx p < nx c0) by (apply hp; left; reflexivity).
  destruct r as [|[t0 tb0] r]; [destruct u as [|? [|? ?]]; discriminate|].
  cbn zeta. cbn [sweep]. fold (sweep G inf_ceil ms rg). set (o := added _ _ _ _ _ _ _ _ _ _ _). intros hn.
  assert (ho : (o = [] /\ variation (nx la) la c0 t0 < G) \/ (o <> [] /\ last o (nx la) = nx c0 /\ In (nx c0) o)).
  { destruct (added_cases G inf_ceil ms rg l b0 (nx la) la p c0 t0) as [[h _]|[f h]]; fold o in h.
    - left. split; [exact h|]. eapply added_nil. exact h.
    - right. destruct (pieces_spec (nx p) (nx c0) f hc) as (_ & _ & h3 & h4). rewrite <- h in h3, h4.
      assert (hne : o <> []) by (intros e'; rewrite e' in h4; destruct h4). split; [exact hne|]. split; [|exact h4].
      rewrite (last_def o (nx la) 0 hne). exact h3. }
  destruct u as [|[c1 b1] u].
  - cbn in e. assert (c = c0) by congruence. assert (t = t0) by congruence. subst c t.
    destruct ho as [[_ hv]|(_ & _ & hi)]; [|exfalso; apply hn, in_app_iff; auto].
    exists la. split; [left; reflexivity|]. split; [lra|exact hv].
  - cbn in e. injection e as e0 e0' e. subst c1 b1. destruct ho as [[h0 _]|(h0 & h1 & h2)].
    + rewrite h0 in hn |- *. cbn [app last] in *.
      destruct (IH _ la c0 ltac:(lra) hr u c b t tb v e hn) as (la' & k1 & k2 & k3). exists la'. split; [|auto].
      destruct k1 as [k1|[k1 k1']]; [auto|right]. split; [right; exact k1|exact k1'].
    + rewrite h1 in hn |- *. assert (e2 : match o with [] => la | _ => c0 end = c0) by (destruct o; [contradiction|reflexivity]). rewrite e2 in hn |- *.
      assert (hn' : ~ In (nx c) (sweep G inf_ceil ms rg (if b0 then l else S l) (nx c0) c0 c0 ((t0, tb0) :: r))) by (intros h; apply hn, in_app_iff; auto).
      destruct (IH _ c0 c0 ltac:(lra) hr u c b t tb v e hn') as (la' & k1 & k2 & k3). exists la'. split; [|auto]. right.
      destruct k1 as [->|[k1 k1']]; (split; [cbn; auto|apply in_app_iff; auto]).
Qed.
End Mesh.

(** C196 (number): the new mesh has at most one node for each element of up to 0.2 nm and one for each
    0.2 nm of a longer one, apart from the last element. *)
Theorem C196_number G i y ms X r : G <> 0 -> mesh_ok ms X -> dynamic_mesh G i y ms X = Ok r ->
  (length r <= 1 + budget G (hd 0%R (map nx X)) (tl (map nx X)))%nat.
Proof.
  intros hG h e. rewrite (new_length _ _ _ _ _ _ h e).
  destruct (ok_split ms X h) as (a & s & m & ms' & -> & -> & hr & h1 & h2 & _).
  cbn [refined map hd tl length]. set (fl := marks (m :: ms') (map nx s)).
  assert (hl : length s = length fl) by (unfold fl; rewrite marks_length, map_length; reflexivity).
  assert (hmap := map_combine_fst nx s fl hl).
  assert (k := sweep_length G i (nx a :: m :: ms') (length (filter negb fl)) (combine s fl) hG 0 (nx a) a a).
  rewrite hmap in k. specialize (k ltac:(apply rising_cons; auto)). lia.
Qed.
Lemma combine_split {A B} (s : list A) (fl : list B) u c t v : length s = length fl -> s = u ++ c :: t :: v ->
  exists u' b tb v', combine s fl = u' ++ (c, b) :: (t, tb) :: v' /\ map fst u' = u.
Proof.
  revert s fl; induction u as [|x u IH]; intros s fl hl ->; cbn in hl.
  - destruct fl as [|b [|tb fl]]; cbn in hl; try lia. exists [], b, tb, (combine v fl). split; reflexivity.
  - destruct fl as [|b0 fl]; cbn in hl; [lia|]. destruct (IH (u ++ c :: t :: v) fl ltac:(lia) eq_refl) as (u' & b & tb & v' & e1 & e2).
    exists ((x, b0) :: u'), b, tb, v'. split; [cbn; rewrite e1; reflexivity|cbn; rewrite e2; reflexivity].
Qed.
(** C196 (removal): an old node [c] is missing among the positions before they are smoothed only if
    the potentials and the logarithms of the densities differ by less than twice Growth between
    a node kept before it and the node [t] after it. *)
Theorem C196_removed G i ms X a u c t v : mesh_ok ms X -> X = a :: u ++ c :: t :: v -> (forall z, In z X -> 0 < nn z /\ 0 < pp z) ->
  ~ In (nx c) (refined G i ms X) ->
  exists k, In k (a :: u) /\ In (nx k) (refined G i ms X) /\
    Rabs (psi k - psi t) < 2 * G /\ Rabs (fn k - fn t) < 2 * G /\ Rabs (fp k - fp t) < 2 * G /\
    Rabs (ln (nn k) - ln (nn t)) < 2 * G /\ Rabs (ln (pp k) - ln (pp t)) < 2 * G.
Proof.
  intros h eX hpos hn. destruct (ok_split ms X h) as (a' & s & m & ms' & eX' & -> & hr & h1 & h2 & _).
  assert (a' = a) by congruence. assert (es : s = u ++ c :: t :: v) by congruence. subst a'.
  rewrite eX' in hn |- *. cbn [refined tl] in hn |- *. set (fl := marks (m :: ms') (map nx s)) in *.
  assert (hl : length s = length fl) by (unfold fl; rewrite marks_length, map_length; reflexivity).
  assert (hmap := map_combine_fst nx s fl hl).
  destruct (combine_split s fl u c t v hl es) as (u' & b & tb & v' & e1 & e2).
  destruct (sweep_removed G i (nx a :: m :: ms') (length (filter negb fl)) (combine s fl) 0 a a ltac:(lra)) with (u := u') (c := c) (b := b) (t := t) (tb := tb) (v := v') as (k & k1 & k2 & k3); auto.
  { rewrite hmap. apply rising_cons; auto. }
  { intros hh. apply hn. right. exact hh. }
  exists k. rewrite e2 in k1. split; [destruct k1 as [->|[k1 _]]; [left; auto|right; exact k1]|].
  split; [destruct k1 as [->|[_ k1]]; [left; auto|right; exact k1]|].
  assert (hk : In k X) by (rewrite eX; destruct k1 as [->|[k1 _]]; [left; auto|right; apply in_app_iff; auto]).
  assert (ht : In t X) by (rewrite eX; right; apply in_app_iff; right; right; left; auto).
  destruct (hpos k hk) as [p1 p2]. destruct (hpos t ht) as [p3 p4].
  unfold variation in k3. rewrite !interpol_eq in k3 by lra.
  replace ((nx k - nx k) / (nx c - nx k)) with 0 in k3 by (field; lra). rewrite !Rmult_0_r, !Rplus_0_r in k3.
  rewrite !exp_ln in k3 by assumption. 
  assert (ld : forall a b, 0 < a -> 0 < b -> ln (a / b) = ln a - ln b).
  { intros a' b' ha hb. unfold Rdiv. rewrite ln_mult, ln_Rinv by (try apply Rinv_0_lt_compat; assumption). lra. }
  rewrite !ld in k3 by assumption.
  set (A := Rabs (psi k - psi t)) in *. set (B := Rabs (fn k - fn t)) in *. set (C := Rabs (fp k - fp t)) in *.
  set (D := Rabs (ln (nn k) - ln (nn t))) in *. set (E := Rabs (ln (pp k) - ln (pp t))) in *.
  assert (q1 := Rmax_l (Rmax (Rmax A B) C) (Rmax D E)). assert (q2 := Rmax_r (Rmax (Rmax A B) C) (Rmax D E)).
  assert (q3 := Rmax_l (Rmax A B) C). assert (q4 := Rmax_r (Rmax A B) C). assert (q5 := Rmax_l A B). assert (q6 := Rmax_r A B).
  assert (q7 := Rmax_l D E). assert (q8 := Rmax_r D E).
  assert (Rmax (Rmax (Rmax A B) C) (Rmax D E) < 2 * G) by lra. repeat split; lra.
Qed.

Example ex_number : forall r, dynamic_mesh 2 5 0 [0; nm; 2 * nm] two_layers = Ok r -> (length r <= 7)%nat.
Proof.
  intros r e. assert (h := C196_number 2 5 0 _ _ r ltac:(lra) three_ok e). revert h. cbn [two_layers map flat nx hd tl budget].
  rewrite (Rceil_eq ((nm - 0) / (2 / 10 ^ 10)) 5) by (unfold nm; lra). rewrite (Rceil_eq (1 / 2) 1) by lra. intros h; lia.
Qed.
(** A long layer with a superfluous node: the node at 10 is removed. *)
Definition long_layer : list node := [flat 0; flat 9; flat 10; flat 11; flat 20].
Lemma long_ok : mesh_ok [0; 20] long_layer.
Proof.
  unfold mesh_ok. cbn. repeat split; try lia; try lra.
  1,2: repeat (apply rising_cons; split; [|intros ? hx; cbn in hx; intuition lra]); constructor.
  intros x [<-|[<-|[]]]; cbn; auto 10.
Qed.
Lemma nx_flat x : nx (flat x) = x.
Proof. reflexivity. Qed.
Ltac decide_all :=
  repeat (match goal with
          | |- context [Rle_dec ?a ?b] => first [destruct (Rle_dec a b) as [?h|?h]; [clear h|exfalso; lra] | destruct (Rle_dec a b) as [?h|?h]; [exfalso; lra|clear h]]
          | |- context [Rlt_dec ?a ?b] => first [destruct (Rlt_dec a b) as [?h|?h]; [clear h|exfalso; lra] | destruct (Rlt_dec a b) as [?h|?h]; [exfalso; lra|clear h]]
          end; cbn [andb]).
Lemma long_refined i : refined 5 i [0; 20] long_layer = [0; 9; 11; 20].
Proof.
  assert (A1 : added 5 i [0; 20] 1 0 true 0 (flat 0) (flat 0) (flat 9) (flat 10) = [9]).
  { unfold added, join, region_size, mn. rewrite !flat_variation, !nx_flat by lra. cbn [nth Nat.ltb Nat.leb andb]. decide_all. reflexivity. }
  assert (A2 : added 5 i [0; 20] 1 0 true 9 (flat 9) (flat 9) (flat 10) (flat 11) = []).
  { unfold added, join, region_size, mn. rewrite !flat_variation, !nx_flat by lra. cbn [nth Nat.ltb Nat.leb andb]. decide_all. reflexivity. }
  assert (A3 : added 5 i [0; 20] 1 0 true 9 (flat 9) (flat 10) (flat 11) (flat 20) = [11]).
  { unfold added, join, region_size, mn. rewrite !flat_variation, !nx_flat by lra. cbn [nth Nat.ltb Nat.leb andb]. decide_all. reflexivity. }
  unfold long_layer. cbn [refined map tl]. rewrite !nx_flat.
  assert (M : marks [20] [9; 10; 11; 20] = [true; true; true; false]) by (cbn [marks]; decide_all; reflexivity).
  rewrite M. cbn [combine filter negb length sweep]. rewrite A1. cbn [last app]. rewrite A2. cbn [last app]. rewrite A3.
  unfold pieces, ceil_div. rewrite !nx_flat. destruct (Req_EM_T (20 - 11) 0) as [e|_]; [lra|].
  rewrite (Rceil_eq ((20 - 11) / 5 / (20 - 11)) 1) by lra. reflexivity.
Qed.
Example ex_removed i : ~ In 10 (refined 5 i [0; 20] long_layer) /\
  exists k, In (nx k) (refined 5 i [0; 20] long_layer) /\ Rabs (psi k - psi (flat 11)) < 2 * 5.
Proof.
  assert (h : ~ In 10 (refined 5 i [0; 20] long_layer)) by (rewrite long_refined; cbn; intuition lra). split; [exact h|].
  destruct (C196_removed 5 i [0; 20] long_layer (flat 0) [flat 9] (flat 10) (flat 11) [flat 20] long_ok eq_refl) as (k & _ & h1 & h2 & _).
  - intros z hz. cbn in hz. intuition (subst; cbn; lra).
  - exact h.
  - exists k. split; [exact h1|exact h2].
Qed.

(** Properties C136 and C137: the Newton step and the loop around it. *)
From Coq Require Import Reals List Bool Lia Lra Arith.
From Coquelicot Require Import Coquelicot.
From Verif Require Import Common DDModel DDProps DDProps2 DDProps3 BandModel BandProps NewtonModel.
From Coq Require Import List.
Import ListNotations.
Open Scope R_scope.

(** The unknown v of node k in a correction. *)
Definition part (x : nat -> R) (v k : nat) : R := x (3 * k + 1 + v)%nat.
(** Equation e of node k, linearised, applied to a correction: the entries for the nodes that
    exist among k-1, k and k+1. *)
Definition at_side (d : dev) (s : pot) (w : bnd) (x : nat -> R) (e k side : nat) : R :=
  sum_to (fun v => entry d s w e k (unknown v) side * part x v (k + side - 1)) 3.
Definition linear (d : dev) (s : pot) (w : bnd) (x : nat -> R) (e k : nat) : R :=
  (if (k =? 0)%nat then 0 else at_side d s w x e k 0) + at_side d s w x e k 1 + (if (k =? d_M d)%nat then 0 else at_side d s w x e k 2).

Lemma sum_to_3 g m : sum_to g (3 * m) = sum_to (fun k => g (3 * k)%nat + g (3 * k + 1)%nat + g (3 * k + 2)%nat) m.
Proof.
  induction m as [|m IH]; [reflexivity|]. replace (3 * S m)%nat with (S (S (S (3 * m)))) by lia. cbn [sum_to]. rewrite IH.
  replace (S (3 * m)) with (3 * m + 1)%nat by lia. replace (S (3 * m + 1)) with (3 * m + 2)%nat by lia. ring.
Qed.
Lemma sum_to_near h k m : (k <= m)%nat -> (forall j, (j + 1 < k)%nat \/ (k + 1 < j)%nat -> h j = 0) ->
  sum_to h (m + 1) = (if (k =? 0)%nat then 0 else h (k - 1)%nat) + h k + (if (k =? m)%nat then 0 else h (k + 1)%nat).
Proof.
  intros L Z0. destruct k as [|k].
  - destruct (Nat.eqb_spec 0 m) as [<-|N]; cbn [Nat.eqb Nat.add sum_to]; [ring|]. rewrite (sum_to_tail h 2 (m + 1)) by (first [lia|intros; apply Z0; lia]). cbn [sum_to]. ring.
  - change (S k =? 0)%nat with false. cbv iota. replace (S k - 1)%nat with k by lia.
    assert (A : sum_to h (S (S k)) = h k + h (S k)).
    { cbn [sum_to]. rewrite (sum_to_zero h k) by (intros; apply Z0; lia). ring. }
    destruct (Nat.eqb_spec (S k) m) as [<-|N].
    + replace (S k + 1)%nat with (S (S k)) by lia. rewrite A. ring.
    + rewrite (sum_to_tail h (S (S (S k))) (m + 1)) by (first [lia|intros; apply Z0; lia]).
      change (sum_to h (S (S (S k)))) with (sum_to h (S (S k)) + h (S (S k))). rewrite A. replace (S k + 1)%nat with (S (S k)) by lia. ring.
Qed.

Section Step.
Context (d : dev) (s : pot) (w : bnd) (old : nat -> nat -> R).
Notation M := (d_M d).
(** The places that are never written, lines 793 and 1659-1788, except the corners. *)
Context (Hold : forall k e j, (e <= 2)%nat -> (1 <= j <= 11)%nat -> (j + e < 3 \/ 11 < j + e)%nat -> old (3 * k + e + 1)%nat j = 0).

Lemma div_row k e : (e <= 2)%nat -> ((3 * k + e + 1 - 1) / 3 = k /\ (3 * k + e + 1 - 1) mod 3 = e)%nat.
Proof.
  intros L. replace (3 * k + e + 1 - 1)%nat with (e + k * 3)%nat by lia. rewrite Nat.div_add, Nat.mod_add, Nat.div_small, Nat.mod_small by lia. lia.
Qed.
Lemma dense_jac k e k' v : (e <= 2)%nat -> (v <= 2)%nat -> (k <= M)%nat -> (k' <= M)%nat ->
  dense 5 5 (jac d s w old) (3 * k + e + 1) (3 * k' + v + 1) =
  if (k' + 1 <? k)%nat || (k + 1 <? k')%nat then 0 else entry d s w e k (unknown v) (k' + 1 - k).
Proof.
  intros Le Lv Lk Lk'. unfold dense. set (i := (3 * k + e + 1)%nat). set (c := (3 * k' + v + 1)%nat).
  destruct (le_lt_dec i (c + 5)) as [A|A]; [rewrite (proj2 (Nat.leb_le i (c + 5))) by lia|rewrite (proj2 (Nat.leb_gt i (c + 5))) by lia].
  2:{ cbn [andb]. rewrite (proj2 (Nat.ltb_lt (k' + 1) k)) by (unfold i, c in A; lia). reflexivity. }
  destruct (le_lt_dec c (i + 5)) as [B|B]; [rewrite (proj2 (Nat.leb_le c (i + 5))) by lia|rewrite (proj2 (Nat.leb_gt c (i + 5))) by lia].
  2:{ cbn [andb]. rewrite (proj2 (Nat.ltb_lt (k + 1) k')) by (unfold i, c in B; lia). now rewrite orb_true_r. }
  cbn [andb]. unfold jac. destruct (div_row k e Le) as [D1 D2]. fold i in D1, D2. rewrite D1, D2. set (j := (c + 5 + 1 - i)%nat).
  assert (Ej : (j + e + 3 * k = 3 * k' + v + 6)%nat) by (unfold j, i, c in *; lia).
  assert (Lj : (1 <= j <= 11)%nat) by (unfold j, i, c in *; lia).
  destruct (le_lt_dec k (k' + 1)) as [C|C]; [rewrite (proj2 (Nat.ltb_ge (k' + 1) k)) by lia|rewrite (proj2 (Nat.ltb_lt (k' + 1) k)) by lia].
  2:{ cbn [orb]. rewrite (proj2 (Nat.leb_gt 3 (j + e))) by lia. cbn [andb]. apply (Hold k e j Le Lj). lia. }
  destruct (le_lt_dec k' (k + 1)) as [E|E]; [rewrite (proj2 (Nat.ltb_ge (k + 1) k')) by lia|rewrite (proj2 (Nat.ltb_lt (k + 1) k')) by lia].
  2:{ cbn [orb]. rewrite (proj2 (Nat.leb_gt (j + e) 11)) by lia. rewrite andb_false_r. cbn [andb]. apply (Hold k e j Le Lj). lia. }
  cbn [orb]. rewrite (proj2 (Nat.leb_le 3 (j + e))), (proj2 (Nat.leb_le (j + e) 11)) by lia. cbn [andb].
  assert (S1 : ((j + e - 3) / 3 = k' + 1 - k)%nat) by (replace (j + e - 3)%nat with (v + (k' + 1 - k) * 3)%nat by lia; rewrite Nat.div_add, Nat.div_small by lia; lia).
  assert (S2 : ((j + e - 3) mod 3 = v)%nat) by (replace (j + e - 3)%nat with (v + (k' + 1 - k) * 3)%nat by lia; rewrite Nat.mod_add, Nat.mod_small by lia; lia).
  rewrite S1, S2.
  destruct ((k =? 0)%nat && (k' + 1 - k =? 0)%nat) eqn:F1; [apply andb_prop in F1; destruct F1 as [F F']; apply Nat.eqb_eq in F, F'; lia|].
  destruct ((k =? M)%nat && (k' + 1 - k =? 2)%nat) eqn:F2; [apply andb_prop in F2; destruct F2 as [F F']; apply Nat.eqb_eq in F, F'; lia|].
  reflexivity.
Qed.
Lemma product_linear x k e : (e <= 2)%nat -> (k <= M)%nat ->
  product (3 * M + 3) 5 5 (jac d s w old) x (3 * k + e + 1) = linear d s w x e k.
Proof.
  intros Le Lk. unfold product. replace (3 * M + 3)%nat with (3 * (M + 1))%nat by lia. rewrite sum_to_3.
  set (h := fun j => if (j + 1 <? k)%nat || (k + 1 <? j)%nat then 0 else at_side d s w x e k (j + 1 - k)).
  rewrite (sum_to_ext _ h).
  - unfold linear. rewrite (sum_to_near h k M Lk).
    + unfold h. rewrite (proj2 (Nat.ltb_ge (k + 1) k)) by lia. replace (k + 1 - k)%nat with 1%nat by lia. cbn [orb].
      rewrite (proj2 (Nat.ltb_ge (k + 1) (k + 1))) by lia. rewrite orb_false_r. rewrite (proj2 (Nat.ltb_ge (k + 1 + 1) k)) by lia. replace (k + 1 + 1 - k)%nat with 2%nat by lia.
      destruct (Nat.eqb_spec k 0) as [->|N]; [reflexivity|]. replace (k - 1 + 1)%nat with k by lia. rewrite (proj2 (Nat.ltb_ge k k)), (proj2 (Nat.ltb_ge (k + 1) (k - 1))) by lia.
      replace (k - k)%nat with 0%nat by lia. reflexivity.
    + intros j Lj. unfold h. destruct (Nat.ltb_spec (j + 1) k); [reflexivity|]. destruct (Nat.ltb_spec (k + 1) j); [reflexivity|lia].
  - intros j Lj. rewrite (dense_jac k e j 2) by lia. replace (3 * j + 1)%nat with (3 * j + 0 + 1)%nat at 1 by lia. rewrite (dense_jac k e j 0) by lia.
    rewrite (dense_jac k e j 1) by lia. unfold h. destruct (_ || _) eqn:F; [ring|]. apply orb_false_elim in F. destruct F as [F1 F2]. apply Nat.ltb_ge in F1, F2.
    unfold at_side. cbn [sum_to]. unfold part. replace (k + (j + 1 - k) - 1)%nat with j by lia. rewrite !Rplus_0_l.
    replace (3 * j + 1 + 0)%nat with (3 * j + 1)%nat by lia. replace (3 * j + 1 + 2)%nat with (3 * j + 2 + 1)%nat by lia. reflexivity.
Qed.
End Step.

(** What [Reset] guarantees of the array: the places that no row writes are zero; the corners
    may hold entries of another device. *)
Definition zeroed (old : nat -> nat -> R) : Prop :=
  forall k e j, (e <= 2)%nat -> (1 <= j <= 11)%nat -> (j + e < 3 \/ 11 < j + e)%nat -> old (3 * k + e + 1)%nat j = 0.
Definition solvable (d : dev) (s : pot) (w : bnd) (old : nat -> nat -> R) : Prop := regular (3 * d_M d + 3) 5 5 (jac d s w old).

(** C136: the correction makes every linearised equation of every node vanish. *)
Theorem C136_newton : forall d s w old e k, zeroed old -> (1 <= d_M d)%nat -> solvable d s w old -> (e <= 2)%nat -> (k <= d_M d)%nat ->
  residual d s w e k + linear d s w (newton d s w old) e k = 0.
Proof.
  intros d s w old e k Hz HM Rg Le Lk. rewrite <- (product_linear d s w old Hz) by assumption. unfold newton.
  rewrite C135_solve by (first [lia|exact Rg]). unfold rhs. destruct (div_row k e Le) as [-> ->]. ring.
Qed.

(** Along the correction. *)
Lemma along_0_Psi x s k : o_Psi (along x 0 s) k = o_Psi s k.
Proof. cbn. ring. Qed.
Lemma poisson_dir d s w x k : (k <= d_M d)%nat -> (1 <= d_M d)%nat -> (forall j, (j < d_M d)%nat -> d_dX d j <> 0) ->
  is_derive (fun t => f_poisson d (along x t s) w k) 0 (linear d s w x 1 k).
Proof.
  intros Lk HM Nx. unfold linear, at_side, part, f_poisson, Rho, n, p. cbn [sum_to unknown entry along o_Psi o_Fn o_Fp].
  destruct (Nat.eqb_spec k 0) as [->|N0].
  - rewrite (proj2 (Nat.eqb_neq 0 (d_M d))) by lia. cbn [front_poisson Nat.add Nat.sub Nat.mul]. pose proof (Nx 0%nat ltac:(lia)).
    auto_derive; [tauto|]. field. assumption.
  - destruct (Nat.eqb_spec k (d_M d)) as [->|NM].
    + cbn [back_poisson]. pose proof (Nx (d_M d - 1)%nat ltac:(lia)). replace (d_M d + 1 - 1)%nat with (d_M d) by lia. replace (3 * d_M d + 1 + 1)%nat with (3 * d_M d + 2)%nat by lia.
      generalize (x (3 * d_M d + 2)%nat). intros x2. auto_derive; [tauto|]. field. assumption.
    + cbn [J_poisson]. pose proof (Nx k ltac:(lia)). pose proof (Nx (k - 1)%nat ltac:(lia)). unfold n, p.
      replace (k + 0 - 1)%nat with (k - 1)%nat by lia. replace (k + 1 - 1)%nat with k by lia. replace (k + 2 - 1)%nat with (k + 1)%nat by lia.
      replace (3 * (k - 1) + 1 + 1)%nat with (3 * (k - 1) + 2)%nat by lia. replace (3 * k + 1 + 1)%nat with (3 * k + 2)%nat by lia.
      replace (3 * (k + 1) + 1 + 1)%nat with (3 * (k + 1) + 2)%nat by lia. replace (3 * k + 1 + 2)%nat with (3 * k + 3)%nat by lia. replace (3 * k + 1 + 0)%nat with (3 * k + 1)%nat by lia.
      generalize (x (3 * (k - 1) + 2)%nat), (x (3 * k + 2)%nat), (x (3 * (k + 1) + 2)%nat), (x (3 * k + 3)%nat), (x (3 * k + 1)%nat). intros y1 y2 y3 y4 y5.
      auto_derive; [tauto|]. rewrite !Rmult_0_l, !Rplus_0_r. unfold Rminus. field. split; assumption.
Qed.
(** C136: on a mesh without empty elements, Poisson's equation starts to fall along the
    correction exactly at the rate of its own size, at every node. *)
Theorem C136_poisson : forall d s w old k, zeroed old -> (1 <= d_M d)%nat -> (forall j, (j < d_M d)%nat -> d_dX d j <> 0) -> solvable d s w old -> (k <= d_M d)%nat ->
  is_derive (fun t => f_poisson d (along (newton d s w old) t s) w k) 0 (- f_poisson d s w k).
Proof.
  intros d s w old k Hz HM Nx Rg Lk. pose proof (C136_newton d s w old 1 k Hz HM Rg ltac:(lia) Lk) as E. cbn [residual] in E.
  replace (- f_poisson d s w k) with (linear d s w (newton d s w old) 1 k) by lra. now apply poisson_dir.
Qed.
(** C136: the full correction satisfies the conditions on the potential at the surfaces
    exactly: zero at the back, the applied one at the front under bias (SC = 1). *)
Theorem C136_surfaces : forall d s w old, zeroed old -> (1 <= d_M d)%nat -> solvable d s w old ->
  d_dX d 0 <> 0 -> d_dX d (d_M d - 1) <> 0 -> d_eps d 1 + d_eps d 0 <> 0 -> d_eps d (d_M d) + d_eps d (d_M d - 1) <> 0 ->
  let s' := along (newton d s w old) 1 s in
  o_Psi s' (d_M d) = 0 /\ o_Psi s' 0 = (1 - w_SC w) * o_Psi s' 1 + w_SC w * v_ap w.
Proof.
  intros d s w old Hz HM Rg X0 XM E0 EM s'.
  pose proof (C136_newton d s w old 1 0 Hz HM Rg ltac:(lia) ltac:(lia)) as A. pose proof (C136_newton d s w old 1 (d_M d) Hz HM Rg ltac:(lia) ltac:(lia)) as B.
  unfold s'. set (x := newton d s w old) in *. clearbody x. clear s'. cbn [along o_Psi]. rewrite !Rmult_1_l.
  unfold linear, at_side, part in A, B. cbn [residual sum_to unknown entry] in A, B. unfold f_poisson in A, B.
  rewrite Nat.eqb_refl in A, B. rewrite (proj2 (Nat.eqb_neq 0 (d_M d))) in A by lia. rewrite (proj2 (Nat.eqb_neq (d_M d) 0)) in B by lia.
  cbn [front_poisson back_poisson] in A, B. replace (d_M d + 1 - 1)%nat with (d_M d) in B by lia. replace (3 * d_M d + 1 + 1)%nat with (3 * d_M d + 2)%nat in B by lia.
  cbn [Nat.add Nat.sub Nat.mul] in A. split.
  - set (c := (d_eps d (d_M d) + d_eps d (d_M d - 1)) / d_dX d (d_M d - 1)) in *.
    assert (Nc : c <> 0) by (unfold c, Rdiv; apply Rmult_integral_contrapositive_currified; [assumption|now apply Rinv_neq_0_compat]).
    replace (- (d_eps d (d_M d) + d_eps d (d_M d - 1)) / d_dX d (d_M d - 1)) with (- c) in B by (unfold c; field; assumption).
    assert (F : c * (o_Psi s (d_M d) + x (3 * d_M d + 2)%nat) = 0) by lra. apply Rmult_integral in F. tauto.
  - set (c := (d_eps d 1 + d_eps d 0) / d_dX d 0) in *. assert (Nc : c <> 0) by (unfold c, Rdiv; apply Rmult_integral_contrapositive_currified; [assumption|now apply Rinv_neq_0_compat]).
    replace (- (d_eps d 1 + d_eps d 0) / d_dX d 0) with (- c) in A by (unfold c; field; assumption).
    replace ((1 - w_SC w) * (d_eps d 1 + d_eps d 0) / d_dX d 0) with ((1 - w_SC w) * c) in A by (unfold c; field; assumption).
    cbn [Nat.add Nat.mul]. assert (F : c * (o_Psi s 0 + x 2%nat - ((1 - w_SC w) * (o_Psi s 1 + x 5%nat) + w_SC w * v_ap w)) = 0) by lra.
    apply Rmult_integral in F. destruct F as [F|F]; [contradiction|lra].
Qed.

(** The currents of an element along a correction. *)
Lemma flux_n_dir d s x k : quiet d -> d_b d <> 0 -> d_dX d k <> 0 -> tiny < Rabs (Cn d s (k + 1) - Cn d s k) ->
  is_derive (fun t => flux_n d (along x t s) k) 0
    (sum_to (fun v => dfuncn d s (unknown v) false k * part x v k) 3 + sum_to (fun v => dfuncn d s (unknown v) true k * part x v (k + 1)) 3).
Proof.
  intros Q Nb Nx H. pose proof (Z_derive _ H) as D. assert (Ex : ex_derive Z (Cn d s (k + 1) - Cn d s k)) by (eexists; exact D). apply is_derive_unique in D.
  cbn [sum_to unknown]. unfold dfuncn. rewrite !(quiet_dgrec d s) by assumption. rewrite !(quiet_GR d s) by assumption. rewrite <- !D. clear D. unfold part.
  unfold flux_n, n, Cn in *. cbn [along o_Fp o_Psi o_Fn].
  replace (3 * k + 1 + 0)%nat with (3 * k + 1)%nat by lia. replace (3 * k + 1 + 1)%nat with (3 * k + 2)%nat by lia. replace (3 * k + 1 + 2)%nat with (3 * k + 3)%nat by lia.
  replace (3 * (k + 1) + 1 + 0)%nat with (3 * (k + 1) + 1)%nat by lia. replace (3 * (k + 1) + 1 + 1)%nat with (3 * (k + 1) + 2)%nat by lia. replace (3 * (k + 1) + 1 + 2)%nat with (3 * (k + 1) + 3)%nat by lia.
  generalize (x (3 * k + 1)%nat), (x (3 * k + 2)%nat), (x (3 * k + 3)%nat), (x (3 * (k + 1) + 1)%nat), (x (3 * (k + 1) + 2)%nat), (x (3 * (k + 1) + 3)%nat). intros y1 y2 y3 y4 y5 y6.
  set (a := o_Psi s (k + 1)) in *. set (c := o_Psi s k) in *. set (va := Vn d (k + 1)) in *. set (vc := Vn d k) in *. set (la := ln (d_mun d (k + 1) / d_mun d (d_M d))) in *. set (lc := ln (d_mun d k / d_mun d (d_M d))) in *.
  assert (E0 : a + 0 * y5 + va + la - (c + 0 * y2 + vc + lc) = a + va + la - (c + vc + lc)) by ring.
  auto_derive.
  - rewrite <- E0 in Ex. unfold Rminus in Ex. repeat split; try tauto; try exact Ex.
  - change (Derive (fun x : R => Z x)) with (Derive Z). unfold Rminus in *. rewrite E0. rewrite !Rmult_0_l, !Rplus_0_r. field. split; assumption.
Qed.
Lemma flux_p_dir d s x k : quiet d -> d_b d <> 0 -> d_dX d k <> 0 -> tiny < Rabs (Cp d s (k + 1) - Cp d s k) ->
  is_derive (fun t => flux_p d (along x t s) k) 0
    (sum_to (fun v => dfuncp d s (unknown v) false k * part x v k) 3 + sum_to (fun v => dfuncp d s (unknown v) true k * part x v (k + 1)) 3).
Proof.
  intros Q Nb Nx H. pose proof (Z_derive _ H) as D. assert (Ex : ex_derive Z (Cp d s (k + 1) - Cp d s k)) by (eexists; exact D). apply is_derive_unique in D.
  cbn [sum_to unknown]. unfold dfuncp. rewrite !(quiet_dgrec d s) by assumption. rewrite !(quiet_GR d s) by assumption. rewrite <- !D. clear D. unfold part.
  unfold flux_p, p, Cp in *. cbn [along o_Fp o_Psi o_Fn].
  replace (3 * k + 1 + 0)%nat with (3 * k + 1)%nat by lia. replace (3 * k + 1 + 1)%nat with (3 * k + 2)%nat by lia. replace (3 * k + 1 + 2)%nat with (3 * k + 3)%nat by lia.
  replace (3 * (k + 1) + 1 + 0)%nat with (3 * (k + 1) + 1)%nat by lia. replace (3 * (k + 1) + 1 + 1)%nat with (3 * (k + 1) + 2)%nat by lia. replace (3 * (k + 1) + 1 + 2)%nat with (3 * (k + 1) + 3)%nat by lia.
  generalize (x (3 * k + 1)%nat), (x (3 * k + 2)%nat), (x (3 * k + 3)%nat), (x (3 * (k + 1) + 1)%nat), (x (3 * (k + 1) + 2)%nat), (x (3 * (k + 1) + 3)%nat). intros y1 y2 y3 y4 y5 y6.
  set (a := o_Psi s (k + 1)) in *. set (c := o_Psi s k) in *. set (va := Vp d (k + 1)) in *. set (vc := Vp d k) in *. set (la := ln (d_mup d (k + 1) / d_mup d (d_M d))) in *. set (lc := ln (d_mup d k / d_mup d (d_M d))) in *.
  assert (E0 : a + 0 * y5 - va - la - (c + 0 * y2 - vc - lc) = a - va - la - (c - vc - lc)) by ring.
  auto_derive.
  - rewrite <- E0 in Ex. unfold Rminus in Ex. repeat split; try tauto; try exact Ex.
  - change (Derive (fun x : R => Z x)) with (Derive Z). unfold Rminus in *. rewrite E0. rewrite !Rmult_0_l, !Rplus_0_r. field. split; assumption.
Qed.
Lemma n_dir d s x k : is_derive (fun t => n d (along x t s) k) 0 (n d s k * (part x 1 k - part x 2 k)).
Proof.
  unfold n, part. cbn [along o_Psi o_Fn]. replace (3 * k + 1 + 1)%nat with (3 * k + 2)%nat by lia. replace (3 * k + 1 + 2)%nat with (3 * k + 3)%nat by lia.
  generalize (x (3 * k + 2)%nat), (x (3 * k + 3)%nat). intros y z. auto_derive; [tauto|]. rewrite !Rmult_0_l, !Rplus_0_r. unfold Rminus. ring.
Qed.
Lemma p_dir d s x k : is_derive (fun t => p d (along x t s) k) 0 (p d s k * (part x 0 k - part x 1 k)).
Proof.
  unfold p, part. cbn [along o_Psi o_Fp]. replace (3 * k + 1 + 1)%nat with (3 * k + 2)%nat by lia. replace (3 * k + 1 + 0)%nat with (3 * k + 1)%nat by lia.
  generalize (x (3 * k + 2)%nat), (x (3 * k + 1)%nat). intros y z. auto_derive; [tauto|]. rewrite !Rmult_0_l, !Rplus_0_r. ring.
Qed.
(** No element is in the range of the series of Z. *)
Definition bent (d : dev) (s : pot) : Prop :=
  forall k, (k < d_M d)%nat -> d_dX d k <> 0 /\ tiny < Rabs (Cn d s (k + 1) - Cn d s k) /\ tiny < Rabs (Cp d s (k + 1) - Cp d s k).
Lemma electron_dir d s w x k : quiet d -> d_b d <> 0 -> bent d s -> (1 <= d_M d)%nat -> (k <= d_M d)%nat ->
  is_derive (fun t => f_electron d (along x t s) w k) 0 (linear d s w x 2 k).
Proof.
  intros Q Nb B HM Lk. assert (Fd : forall j, (j < d_M d)%nat -> is_derive (fun t => flux_n d (along x t s) j) 0
    (sum_to (fun v => dfuncn d s (unknown v) false j * part x v j) 3 + sum_to (fun v => dfuncn d s (unknown v) true j * part x v (j + 1)) 3)).
  { intros j Lj. destruct (B j Lj) as (B1 & B2 & B3). now apply flux_n_dir. }
  unfold linear, at_side, f_electron, funcn. destruct (Nat.eqb_spec k 0) as [->|N0].
  - rewrite (proj2 (Nat.eqb_neq 0 (d_M d))) by lia.
    apply (is_derive_ext (fun t => - flux_n d (along x t s) 0 + (1 - w_EQ w) * (1 - w_OCp w) * dd_q * s_nf w * (n d (along x t s) 0 - e_nf w))).
    { intros t. rewrite quiet_GR by assumption. match goal with |- @eq _ ?a ?b => change (@eq R a b) end. ring. }
    pose proof (is_derive_plus _ _ _ _ _ (is_derive_opp _ _ _ (Fd 0%nat ltac:(lia))) (is_derive_scal _ _ ((1 - w_EQ w) * (1 - w_OCp w) * dd_q * s_nf w) _ (is_derive_minus _ _ _ _ _ (n_dir d s x 0) (is_derive_const (e_nf w) 0)))) as D.
    eapply is_derive_ext in D; [|intros t; reflexivity]. match goal with D : is_derive _ _ ?a |- is_derive _ _ ?b => replace b with a; [exact D|] end.
    cbn [sum_to unknown entry front_electron Nat.add Nat.sub Nat.eqb]. change (@plus _) with Rplus. unfold minus, plus, opp, scal, zero; cbn. unfold mult; cbn. ring.
  - destruct (Nat.eqb_spec k (d_M d)) as [->|NM].
    + apply (is_derive_ext (fun t => flux_n d (along x t s) (d_M d - 1) + (1 - w_EQ w) * (1 - w_OCn w) * dd_q * s_nb w * (n d (along x t s) (d_M d) - e_nb w))).
      { intros t. rewrite !quiet_GR by assumption. match goal with |- @eq _ ?a ?b => change (@eq R a b) end. ring. }
      pose proof (is_derive_plus _ _ _ _ _ (Fd (d_M d - 1)%nat ltac:(lia)) (is_derive_scal _ _ ((1 - w_EQ w) * (1 - w_OCn w) * dd_q * s_nb w) _ (is_derive_minus _ _ _ _ _ (n_dir d s x (d_M d)) (is_derive_const (e_nb w) 0)))) as D.
      match goal with D : is_derive _ _ ?a |- is_derive _ _ ?b => replace b with a; [exact D|] end.
      cbn [sum_to unknown entry]. rewrite (proj2 (Nat.eqb_neq (d_M d) 0)), Nat.eqb_refl by lia. cbn [back_electron]. rewrite !(quiet_dgrec d s) by assumption.
      replace (d_M d - 1 + 1)%nat with (d_M d) by lia. replace (d_M d + 0 - 1)%nat with (d_M d - 1)%nat by lia. replace (d_M d + 1 - 1)%nat with (d_M d) by lia.
      unfold minus, plus, opp, scal, zero; cbn -[part]. unfold mult; cbn -[part]. ring.
    + apply (is_derive_ext (fun t => flux_n d (along x t s) (k - 1) - flux_n d (along x t s) k)).
      { intros t. rewrite !quiet_GR by assumption. match goal with |- @eq _ ?a ?b => change (@eq R a b) end. ring. }
      pose proof (is_derive_minus _ _ _ _ _ (Fd (k - 1)%nat ltac:(lia)) (Fd k ltac:(lia))) as D.
      match goal with D : is_derive _ _ ?a |- is_derive _ _ ?b => replace b with a; [exact D|] end.
      cbn [sum_to unknown entry]. rewrite (proj2 (Nat.eqb_neq k 0)), (proj2 (Nat.eqb_neq k (d_M d))) by lia. cbn [J_electron]. rewrite !(quiet_dgrec d s) by assumption.
      replace (k - 1 + 1)%nat with k by lia. replace (k + 0 - 1)%nat with (k - 1)%nat by lia. replace (k + 1 - 1)%nat with k by lia. replace (k + 2 - 1)%nat with (k + 1)%nat by lia.
      unfold minus, plus, opp; cbn -[part]. ring.
Qed.
Lemma hole_dir d s w x k : quiet d -> d_b d <> 0 -> bent d s -> (1 <= d_M d)%nat -> (k <= d_M d)%nat ->
  is_derive (fun t => f_hole d (along x t s) w k) 0 (linear d s w x 0 k).
Proof.
  intros Q Nb B HM Lk. assert (Fd : forall j, (j < d_M d)%nat -> is_derive (fun t => flux_p d (along x t s) j) 0
    (sum_to (fun v => dfuncp d s (unknown v) false j * part x v j) 3 + sum_to (fun v => dfuncp d s (unknown v) true j * part x v (j + 1)) 3)).
  { intros j Lj. destruct (B j Lj) as (B1 & B2 & B3). now apply flux_p_dir. }
  unfold linear, at_side, f_hole, funcp. destruct (Nat.eqb_spec k 0) as [->|N0].
  - rewrite (proj2 (Nat.eqb_neq 0 (d_M d))) by lia.
    apply (is_derive_ext (fun t => - flux_p d (along x t s) 0 - (1 - w_EQ w) * (1 - w_OCn w) * dd_q * s_pf w * (p d (along x t s) 0 - e_pf w))).
    { intros t. rewrite quiet_GR by assumption. match goal with |- @eq _ ?a ?b => change (@eq R a b) end. ring. }
    pose proof (is_derive_minus _ _ _ _ _ (is_derive_opp _ _ _ (Fd 0%nat ltac:(lia))) (is_derive_scal _ _ ((1 - w_EQ w) * (1 - w_OCn w) * dd_q * s_pf w) _ (is_derive_minus _ _ _ _ _ (p_dir d s x 0) (is_derive_const (e_pf w) 0)))) as D.
    match goal with D : is_derive _ _ ?a |- is_derive _ _ ?b => replace b with a; [exact D|] end.
    cbn [sum_to unknown entry front_hole Nat.add Nat.sub Nat.eqb]. unfold minus, plus, opp, scal, zero; cbn. unfold mult; cbn. ring.
  - destruct (Nat.eqb_spec k (d_M d)) as [->|NM].
    + apply (is_derive_ext (fun t => flux_p d (along x t s) (d_M d - 1) - (1 - w_EQ w) * (1 - w_OCp w) * dd_q * s_pb w * (p d (along x t s) (d_M d) - e_pb w))).
      { intros t. rewrite !quiet_GR by assumption. match goal with |- @eq _ ?a ?b => change (@eq R a b) end. ring. }
      pose proof (is_derive_minus _ _ _ _ _ (Fd (d_M d - 1)%nat ltac:(lia)) (is_derive_scal _ _ ((1 - w_EQ w) * (1 - w_OCp w) * dd_q * s_pb w) _ (is_derive_minus _ _ _ _ _ (p_dir d s x (d_M d)) (is_derive_const (e_pb w) 0)))) as D.
      match goal with D : is_derive _ _ ?a |- is_derive _ _ ?b => replace b with a; [exact D|] end.
      cbn [sum_to unknown entry]. rewrite (proj2 (Nat.eqb_neq (d_M d) 0)), Nat.eqb_refl by lia. cbn [back_hole]. rewrite !(quiet_dgrec d s) by assumption.
      replace (d_M d - 1 + 1)%nat with (d_M d) by lia. replace (d_M d + 0 - 1)%nat with (d_M d - 1)%nat by lia. replace (d_M d + 1 - 1)%nat with (d_M d) by lia.
      unfold minus, plus, opp, scal, zero; cbn -[part]. unfold mult; cbn -[part]. ring.
    + apply (is_derive_ext (fun t => flux_p d (along x t s) (k - 1) - flux_p d (along x t s) k)).
      { intros t. rewrite !quiet_GR by assumption. match goal with |- @eq _ ?a ?b => change (@eq R a b) end. ring. }
      pose proof (is_derive_minus _ _ _ _ _ (Fd (k - 1)%nat ltac:(lia)) (Fd k ltac:(lia))) as D.
      match goal with D : is_derive _ _ ?a |- is_derive _ _ ?b => replace b with a; [exact D|] end.
      cbn [sum_to unknown entry]. rewrite (proj2 (Nat.eqb_neq k 0)), (proj2 (Nat.eqb_neq k (d_M d))) by lia. cbn [J_hole]. rewrite !(quiet_dgrec d s) by assumption.
      replace (k - 1 + 1)%nat with k by lia. replace (k + 0 - 1)%nat with (k - 1)%nat by lia. replace (k + 1 - 1)%nat with k by lia. replace (k + 2 - 1)%nat with (k + 1)%nat by lia.
      unfold minus, plus, opp; cbn -[part]. ring.
Qed.

(** The square of the norm of the residuals, lines 1388-1393; Poisson's equation has the weight
    c = XD/t0. *)
Definition square (c : R) (d : dev) (s : pot) (w : bnd) : R :=
  sum_to (fun k => f_hole d s w k ^ 2 + (f_poisson d s w k * c) ^ 2 + f_electron d s w k ^ 2) (d_M d + 1).
Lemma sum_to_derive (g : R -> nat -> R) (l : nat -> R) m : (forall k, (k < m)%nat -> is_derive (fun t => g t k) 0 (l k)) ->
  is_derive (fun t => sum_to (g t) m) 0 (sum_to l m).
Proof.
  induction m as [|m IH]; intros H; cbn [sum_to]; [apply (is_derive_const 0 0)|].
  apply (is_derive_plus (fun t => sum_to (g t) m) (fun t => g t m)); [apply IH; intros; apply H; lia|apply H; lia].
Qed.
Lemma along_zero x s : forall k, o_Fp (along x 0 s) k = o_Fp s k /\ o_Psi (along x 0 s) k = o_Psi s k /\ o_Fn (along x 0 s) k = o_Fn s k.
Proof. intros k. cbn. repeat split; ring. Qed.
Lemma residual_zero d s w x k : f_hole d (along x 0 s) w k = f_hole d s w k /\ f_poisson d (along x 0 s) w k = f_poisson d s w k /\ f_electron d (along x 0 s) w k = f_electron d s w k.
Proof.
  pose proof (along_zero x s) as A. set (s' := along x 0 s) in *. clearbody s'.
  assert (En : forall j, n d s' j = n d s j) by (intros j; unfold n; destruct (A j) as (_ & -> & ->); reflexivity).
  assert (Ep : forall j, p d s' j = p d s j) by (intros j; unfold p; destruct (A j) as (-> & -> & _); reflexivity).
  assert (EG : forall j, GR d s' j = GR d s j) by (intros j; unfold GR, Rsrh, Rrad, Raug, urec, uaug, urad, srh_term; now rewrite !En, !Ep).
  assert (Fn' : forall j, flux_n d s' j = flux_n d s j) by (intros j; unfold flux_n, Cn; rewrite En; destruct (A j) as (_ & -> & ->); destruct (A (j + 1)%nat) as (_ & -> & ->); reflexivity).
  assert (Fp' : forall j, flux_p d s' j = flux_p d s j) by (intros j; unfold flux_p, Cp; rewrite Ep; destruct (A j) as (-> & -> & _); destruct (A (j + 1)%nat) as (-> & -> & _); reflexivity).
  assert (P' : forall j, o_Psi s' j = o_Psi s j) by (intros j; now destruct (A j) as (_ & -> & _)).
  repeat split.
  - unfold f_hole, funcp. now rewrite !EG, !Fp', !Ep.
  - unfold f_poisson, Rho. now rewrite !P', !En, !Ep.
  - unfold f_electron, funcn. now rewrite !EG, !Fn', !En.
Qed.
(** C136: without recombination and light, and with every element bent, all three equations
    fall along the correction at the rate of their size, so that ... *)
Theorem C136_continuity_partial : forall d s w old k, zeroed old -> quiet d -> d_b d <> 0 -> bent d s -> (1 <= d_M d)%nat -> solvable d s w old -> (k <= d_M d)%nat ->
  is_derive (fun t => f_hole d (along (newton d s w old) t s) w k) 0 (- f_hole d s w k) /\
  is_derive (fun t => f_electron d (along (newton d s w old) t s) w k) 0 (- f_electron d s w k).
Proof.
  intros d s w old k Hz Q Nb B HM Rg Lk.
  pose proof (C136_newton d s w old 0 k Hz HM Rg ltac:(lia) Lk) as E0. pose proof (C136_newton d s w old 2 k Hz HM Rg ltac:(lia) Lk) as E2. cbn [residual] in E0, E2.
  replace (- f_hole d s w k) with (linear d s w (newton d s w old) 0 k) by lra. replace (- f_electron d s w k) with (linear d s w (newton d s w old) 2 k) by lra.
  split; [now apply hole_dir|now apply electron_dir].
Qed.
(** ... a step that is short enough lowers the norm, whatever the weight of Poisson's
    equation: the line search can succeed. *)
Theorem C136_descent_partial : forall c d s w old, zeroed old -> quiet d -> d_b d <> 0 -> bent d s -> (1 <= d_M d)%nat -> solvable d s w old -> 0 < square c d s w ->
  exists r, 0 < r /\ forall t, 0 < t < r -> square c d (along (newton d s w old) t s) w < square c d s w.
Proof.
  intros c d s w old Hz Q Nb B HM Rg Hs. set (x := newton d s w old). set (F := fun t => square c d (along x t s) w).
  assert (F0 : F 0 = square c d s w).
  { unfold F, square. apply sum_to_ext. intros k _. destruct (residual_zero d s w x k) as (-> & -> & ->). reflexivity. }
  assert (D : is_derive F 0 (-2 * square c d s w)).
  { unfold F, square. rewrite <- sum_to_scal. apply (sum_to_derive (fun t k => f_hole d (along x t s) w k ^ 2 + (f_poisson d (along x t s) w k * c) ^ 2 + f_electron d (along x t s) w k ^ 2)). intros k Lk.
    pose proof (C136_continuity_partial d s w old k Hz Q Nb B HM Rg ltac:(lia)) as [Dh De].
    pose proof (C136_poisson d s w old k Hz HM (fun j L => proj1 (B j L)) Rg ltac:(lia)) as Dp. fold x in Dh, De, Dp.
    destruct (residual_zero d s w x k) as (Eh & Ep & Ee).
    rewrite <- Eh in Dh. rewrite <- Ep in Dp. rewrite <- Ee in De. rewrite <- Eh, <- Ep, <- Ee.
    set (fh := fun t => f_hole d (along x t s) w k) in *. set (fp := fun t => f_poisson d (along x t s) w k) in *. set (fe := fun t => f_electron d (along x t s) w k) in *.
    change (is_derive (fun t => fh t ^ 2 + (fp t * c) ^ 2 + fe t ^ 2) 0 (-2 * (fh 0 ^ 2 + (fp 0 * c) ^ 2 + fe 0 ^ 2))).
    change (is_derive fh 0 (- fh 0)) in Dh. change (is_derive fp 0 (- fp 0)) in Dp. change (is_derive fe 0 (- fe 0)) in De.
    clearbody fh fp fe. assert (X1 : ex_derive fh 0) by (eexists; exact Dh). assert (X2 : ex_derive fp 0) by (eexists; exact Dp). assert (X3 : ex_derive fe 0) by (eexists; exact De).
    apply is_derive_unique in Dh, Dp, De. auto_derive; [tauto|]. change (fun x0 : R => fh x0) with fh. change (fun x0 : R => fp x0) with fp. change (fun x0 : R => fe x0) with fe. rewrite Dh, Dp, De. ring. }
  apply is_derive_Reals in D. destruct (D (square c d s w) Hs) as [del Hd]. exists (pos del). split; [apply cond_pos|]. intros t Ht.
  specialize (Hd t ltac:(lra) ltac:(rewrite Rabs_pos_eq; lra)). rewrite Rplus_0_l, F0 in Hd. apply Rabs_def2 in Hd. destruct Hd as [Hd _].
  set (S0 := square c d s w) in *. assert (E : (F t - S0) / t < - S0) by lra.
  assert (F t - S0 < - S0 * t). { replace (F t - S0) with ((F t - S0) / t * t) by (field; lra). apply Rmult_lt_compat_r; lra. }
  change (F t < S0). nra.
Qed.

(** A device of one element with both surfaces recombining, under bias. *)
Definition step_bnd : bnd := mkBnd 1 1 1 1 2 (1 / 2) (1 / 2) 2 0 1 0 0 3.
Definition flat_pot : pot := mkPot (fun _ => 0) (fun _ => 0) (fun _ => 0).
Example C136_case : zeroed (fun _ _ => 0) /\ solvable (one_dev 0 1) flat_pot step_bnd (fun _ _ => 0) /\
  o_Psi (along (newton (one_dev 0 1) flat_pot step_bnd (fun _ _ => 0)) 1 flat_pot) 0 = 3.
Proof.
  assert (Hz : zeroed (fun _ _ => 0)) by (intros k e j _ _ _; reflexivity). set (d := one_dev 0 1).
  assert (Q : quiet d) by (repeat split; reflexivity).
  assert (Rg : solvable d flat_pot step_bnd (fun _ _ => 0)).
  { pose proof dd_q_pos as Pq.
    assert (En : forall k, n d flat_pot k = 1) by (intros k; unfold n, d; rewrite one_ni, one_Vn; cbn; rewrite Rminus_0_r, Rplus_0_r, exp_0; ring).
    assert (Ep : forall k, p d flat_pot k = 1) by (intros k; unfold p, d; rewrite one_ni, one_Vp; cbn; rewrite Ropp_0, !Rplus_0_r, exp_0; ring).
    assert (Cn0 : Cn d flat_pot 1 - Cn d flat_pot 0 = 0) by (unfold Cn, d; rewrite !one_Vn; cbn; ring).
    assert (Cp0 : Cp d flat_pot 1 - Cp d flat_pot 0 = 0) by (unfold Cp, d; rewrite !one_Vp; cbn; ring).
    assert (Z0 : Z 0 = 1) by (unfold Z; rewrite Rabs_R0; destruct (Rlt_dec 0 tiny) as [_|N]; [ring|exfalso; apply N, tiny_pos]).
    intros x H. assert (L : forall e k, (e <= 2)%nat -> (k <= 1)%nat -> linear d flat_pot step_bnd x e k = 0).
    { intros e k Le Lk. rewrite <- (product_linear d flat_pot step_bnd (fun _ _ => 0) Hz) by (first [assumption|exact Lk]). apply H. change (d_M d) with 1%nat. lia. }
    pose proof (L 0 0 ltac:(lia) ltac:(lia))%nat as A1. pose proof (L 1 0 ltac:(lia) ltac:(lia))%nat as A2. pose proof (L 2 0 ltac:(lia) ltac:(lia))%nat as A3.
    pose proof (L 0 1 ltac:(lia) ltac:(lia))%nat as A4. pose proof (L 1 1 ltac:(lia) ltac:(lia))%nat as A5. pose proof (L 2 1 ltac:(lia) ltac:(lia))%nat as A6. clear L H.
    unfold linear, at_side, part in *. change (d_M d) with 1%nat in *.
    cbn [sum_to unknown entry Nat.eqb Nat.add Nat.sub Nat.mul] in *. change (d_M d) with 1%nat in *. cbn [Nat.eqb front_hole front_poisson front_electron back_hole back_poisson back_electron] in *.
    change (d_M d) with 1%nat in *. cbn [Nat.sub Nat.add] in *. rewrite !(quiet_dgrec d flat_pot) in * by assumption.
    unfold dfuncn, dfuncp in *. cbn [Nat.add] in *. rewrite !(quiet_dgrec d flat_pot), !(quiet_GR d flat_pot), ?Cn0, ?Cp0, ?Z0, ?En, ?Ep in * by assumption.
    unfold d, one_dev, step_bnd in *. cbn [flat_pot o_Fn o_Fp d_mun d_mup d_b d_dX d_eps w_EQ w_SC w_OCn w_OCp s_pf s_nf s_pb s_nb] in *. rewrite !Rminus_0_r, exp_0 in *.
    set (q := dd_q) in *. clearbody q. 
    assert (X2 : x 2%nat = 0) by lra. assert (X5 : x 5%nat = 0) by lra. rewrite X2, X5 in *.
    assert (E1 : q * (-2 * x 1%nat + x 4%nat) = 0) by (rewrite <- A1; field). assert (E4 : q * (x 1%nat - 2 * x 4%nat) = 0) by (rewrite <- A4; field).
    assert (E3 : q * (-2 * x 3%nat + x 6%nat) = 0) by (rewrite <- A3; field). assert (E6 : q * (x 3%nat - 2 * x 6%nat) = 0) by (rewrite <- A6; field).
    apply Rmult_integral in E1, E3, E4, E6. intros i Li. assert (C : (i = 1 \/ i = 2 \/ i = 3 \/ i = 4 \/ i = 5 \/ i = 6)%nat) by lia.
    destruct C as [-> | [-> | [-> | [-> | [-> | ->]]]]]; lra. }
  split; [exact Hz|]. split; [exact Rg|].
  pose proof (C136_surfaces d flat_pot step_bnd (fun _ _ => 0) Hz ltac:(cbn; lia) Rg ltac:(cbn; lra) ltac:(cbn; lra) ltac:(cbn; lra) ltac:(cbn; lra)) as [_ E].
  cbv zeta in E. etransitivity; [exact E|]. unfold step_bnd. cbn [w_SC v_ap]. ring.
Qed.
Lemma two_by_two a c c' x y : 0 < a -> 0 < c -> 0 < c' -> - (a + c) * x + a * y = 0 -> a * x - (a + c') * y = 0 -> x = 0 /\ y = 0.
Proof.
  intros Pa Pc Pc' A B. assert (E : a * (x - y) ^ 2 + c * x ^ 2 + c' * y ^ 2 = 0).
  { replace (a * (x - y) ^ 2 + c * x ^ 2 + c' * y ^ 2) with (- (- (a + c) * x + a * y) * x - (a * x - (a + c') * y) * y) by ring. rewrite A, B. ring. }
  pose proof (pow2_ge_0 (x - y)). pose proof (pow2_ge_0 x). pose proof (pow2_ge_0 y).
  assert (0 <= a * (x - y) ^ 2) by nra. assert (0 <= c * x ^ 2) by nra. assert (0 <= c' * y ^ 2) by nra.
  assert (X : c * x ^ 2 = 0) by lra. assert (Yy : c' * y ^ 2 = 0) by lra. apply Rmult_integral in X, Yy. split; [destruct X as [X|X]; [lra|]|destruct Yy as [Y1|Y1]; [lra|]]; nra.
Qed.
(** The same device with a step of the potential meets the hypotheses of the descent. *)
Definition bent_pot : pot := mkPot (fun _ => 0) (fun k => match k with O => 1 | _ => 0 end) (fun _ => 0).
Example C136_descent_case : exists r, 0 < r /\ forall t, 0 < t < r ->
  square 1 (one_dev 0 1) (along (newton (one_dev 0 1) bent_pot step_bnd (fun _ _ => 0)) t bent_pot) step_bnd < square 1 (one_dev 0 1) bent_pot step_bnd.
Proof.
  assert (Hz : zeroed (fun _ _ => 0)) by (intros k e j _ _ _; reflexivity). set (d := one_dev 0 1).
  assert (Q : quiet d) by (repeat split; reflexivity). pose proof dd_q_pos as Pq.
  assert (Cn0 : Cn d bent_pot 1 - Cn d bent_pot 0 = -1) by (unfold Cn, d; rewrite !one_Vn; cbn; ring).
  assert (Cp0 : Cp d bent_pot 1 - Cp d bent_pot 0 = -1) by (unfold Cp, d; rewrite !one_Vp; cbn; ring).
  assert (Bt : bent d bent_pot).
  { intros k Lk. change (d_M d) with 1%nat in Lk. assert (k = 0%nat) by lia. subst k. cbn [Nat.add]. rewrite Cn0, Cp0. replace (Rabs (-1)) with 1 by (rewrite Rabs_left; lra). assert (tiny < 1) by (unfold tiny; lra). split; [cbn; lra|]. lra. }
  apply (C136_descent_partial 1 d bent_pot step_bnd); [exact Hz|exact Q|cbn; lra|exact Bt|cbn; lia| |].
  - assert (Pn : forall k, 0 < n d bent_pot k) by (intros k; unfold n, d; rewrite one_ni, Rmult_1_l; apply exp_pos).
    assert (Pp : forall k, 0 < p d bent_pot k) by (intros k; unfold p, d; rewrite one_ni, Rmult_1_l; apply exp_pos).
    intros x H. assert (L : forall e k, (e <= 2)%nat -> (k <= 1)%nat -> linear d bent_pot step_bnd x e k = 0).
    { intros e k Le Lk. rewrite <- (product_linear d bent_pot step_bnd (fun _ _ => 0) Hz) by (first [assumption|exact Lk]). apply H. change (d_M d) with 1%nat. lia. }
    pose proof (L 0 0 ltac:(lia) ltac:(lia))%nat as A1. pose proof (L 1 0 ltac:(lia) ltac:(lia))%nat as A2. pose proof (L 2 0 ltac:(lia) ltac:(lia))%nat as A3.
    pose proof (L 0 1 ltac:(lia) ltac:(lia))%nat as A4. pose proof (L 1 1 ltac:(lia) ltac:(lia))%nat as A5. pose proof (L 2 1 ltac:(lia) ltac:(lia))%nat as A6. clear L H.
    unfold linear, at_side, part in *. change (d_M d) with 1%nat in *.
    cbn [sum_to unknown entry Nat.eqb Nat.add Nat.sub Nat.mul] in *. change (d_M d) with 1%nat in *. cbn [Nat.eqb front_hole front_poisson front_electron back_hole back_poisson back_electron] in *.
    change (d_M d) with 1%nat in *. cbn [Nat.sub Nat.add] in *. rewrite !(quiet_dgrec d bent_pot) in * by assumption.
    unfold dfuncn, dfuncp in *. cbn [Nat.add] in *. rewrite !(quiet_dgrec d bent_pot), !(quiet_GR d bent_pot), ?Cn0, ?Cp0 in * by assumption.
    pose proof (Z_pos (-1)) as Pz. pose proof (Pn 0%nat) as Pn0. pose proof (Pn 1%nat) as Pn1. pose proof (Pp 0%nat) as Pp0. pose proof (Pp 1%nat) as Pp1.
    set (z := Z (-1)) in *. clearbody z. set (n0 := n d bent_pot 0) in *. set (n1 := n d bent_pot 1) in *. set (p0 := p d bent_pot 0) in *. set (p1 := p d bent_pot 1) in *. clearbody n0 n1 p0 p1.
    unfold d, one_dev, step_bnd in *. cbn [bent_pot o_Fn o_Fp d_mun d_mup d_b d_dX d_eps w_EQ w_SC w_OCn w_OCp s_pf s_nf s_pb s_nb] in *. rewrite !Rminus_0_r, exp_0 in *.
    set (q := dd_q) in *. clearbody q.
    assert (X2 : x 2%nat = 0) by lra. assert (X5 : x 5%nat = 0) by lra. rewrite X2, X5 in *.
    destruct (two_by_two (q * p0 * z) (q * p0) (q * p1) (x 1%nat) (x 4%nat)) as [X1 X4]; [apply Rmult_lt_0_compat; [now apply Rmult_lt_0_compat|assumption]|now apply Rmult_lt_0_compat|now apply Rmult_lt_0_compat|rewrite <- A1; field|rewrite <- A4; field|].
    destruct (two_by_two (q * n1 * z) (q * n0) (q * n1) (x 3%nat) (x 6%nat)) as [X3 X6]; [apply Rmult_lt_0_compat; [now apply Rmult_lt_0_compat|assumption]|now apply Rmult_lt_0_compat|now apply Rmult_lt_0_compat|rewrite <- A3; field|rewrite <- A6; field|].
    intros i Li. assert (C : (i = 1 \/ i = 2 \/ i = 3 \/ i = 4 \/ i = 5 \/ i = 6)%nat) by lia. destruct C as [-> | [-> | [-> | [-> | [-> | ->]]]]]; lra.
  - unfold square. change (d_M d + 1)%nat with 2%nat. cbn [sum_to]. assert (E : f_poisson d bent_pot step_bnd 0 = 4) by (unfold f_poisson; cbn; lra). rewrite E.
    pose proof (pow2_ge_0 (f_hole d bent_pot step_bnd 0)). pose proof (pow2_ge_0 (f_hole d bent_pot step_bnd 1)). pose proof (pow2_ge_0 (f_electron d bent_pot step_bnd 0)).
    pose proof (pow2_ge_0 (f_electron d bent_pot step_bnd 1)). pose proof (pow2_ge_0 (f_poisson d bent_pot step_bnd 1 * 1)). lra.
Qed.

(** * The loop *)

Section LoopProps.
Context {S : Type} (it : R -> S -> S) (norm : S -> R) (nitermax : nat) (atol rtol : R).
(** The states and norms of the iterations. *)
Fixpoint iterates (st : S) (m : nat) : S := match m with O => st | Datatypes.S m' => it (norm (iterates st m')) (iterates st m') end.

Lemma verdict_code niter a b : (verdict nitermax atol rtol niter a b <= 3)%nat.
Proof. unfold verdict. destruct (_ <=? _)%nat; [lia|]. destruct (Rlt_dec _ _); [lia|]. destruct (Rlt_dec _ _); [|lia]. destruct (_ <? _)%nat; lia. Qed.
Lemma loop_spec fuel m st0 : (m < Nat.max 1 nitermax)%nat -> (Nat.max 1 nitermax <= m + fuel)%nat ->
  (forall j, (1 <= j <= m)%nat -> verdict nitermax atol rtol j (norm (iterates st0 j)) (norm (iterates st0 (j - 1))) = 0%nat) ->
  exists m', (m < m' <= Nat.max 1 nitermax)%nat /\ verdict nitermax atol rtol m' (norm (iterates st0 m')) (norm (iterates st0 (m' - 1))) <> 0%nat /\
    (forall j, (1 <= j < m')%nat -> verdict nitermax atol rtol j (norm (iterates st0 j)) (norm (iterates st0 (j - 1))) = 0%nat) /\
    newton_loop it norm nitermax atol rtol fuel m (norm (iterates st0 m)) (iterates st0 m) =
      Some (iterates st0 m', norm (iterates st0 m'), m', verdict nitermax atol rtol m' (norm (iterates st0 m')) (norm (iterates st0 (m' - 1)))).
Proof.
  revert m. induction fuel as [|fuel IH]; intros m L1 L2 H; [lia|]. cbn [newton_loop].
  change (it (norm (iterates st0 m)) (iterates st0 m)) with (iterates st0 (Datatypes.S m)). replace (m + 1)%nat with (Datatypes.S m) by lia.
  destruct (verdict nitermax atol rtol (Datatypes.S m) (norm (iterates st0 (Datatypes.S m))) (norm (iterates st0 m))) as [|v] eqn:V.
  - assert (Lm : (Datatypes.S m < Nat.max 1 nitermax)%nat). { unfold verdict in V. destruct (Nat.leb_spec nitermax (Datatypes.S m)); [discriminate|lia]. }
    destruct (IH (Datatypes.S m) Lm ltac:(lia)) as (m' & A & B & C & D).
    { intros j Lj. destruct (Nat.eq_dec j (Datatypes.S m)) as [->|N]; [replace (Datatypes.S m - 1)%nat with m by lia; exact V|apply H; lia]. }
    exists m'. split; [lia|]. split; [exact B|]. split; [exact C|exact D].
  - exists (Datatypes.S m). split; [lia|]. replace (Datatypes.S m - 1)%nat with m by lia. rewrite V. split; [discriminate|]. split; [|reflexivity]. intros j Lj. apply H. lia.
Qed.
End LoopProps.

(** C137: the loop ends after at most max(1, nitermax) iterations, and its code says why: 1
    that the iterations are used up, 2 that the norm is below the absolute tolerance, 3 that
    it changed by less than the relative one in an iteration after the first. *)
Theorem C137_ends : forall (S : Type) (it : R -> S -> S) norm nitermax atol rtol (st : S),
  exists m info, (1 <= m <= Nat.max 1 nitermax)%nat /\
    solve_nonlin it norm nitermax atol rtol (Nat.max 1 nitermax) st = Some (iterates it norm st m, norm (iterates it norm st m), m, info) /\
    ((info = 1%nat /\ m = Nat.max 1 nitermax) \/
     (info = 2%nat /\ (m < nitermax)%nat /\ norm (iterates it norm st m) < atol) \/
     (info = 3%nat /\ (2 <= m < nitermax)%nat /\ atol <= norm (iterates it norm st m) /\
      Rabs ((norm (iterates it norm st m) - norm (iterates it norm st (m - 1))) / norm (iterates it norm st (m - 1))) < rtol)).
Proof.
  intros S it norm nitermax atol rtol st.
  destruct (loop_spec it norm nitermax atol rtol (Nat.max 1 nitermax) 0 st ltac:(lia) ltac:(lia) ltac:(intros; lia)) as (m & A & B & _ & D).
  exists m, (verdict nitermax atol rtol m (norm (iterates it norm st m)) (norm (iterates it norm st (m - 1)))). split; [lia|]. split; [exact D|].
  unfold verdict in *. destruct (Nat.leb_spec nitermax m); [left; split; [reflexivity|lia]|]. destruct (Rlt_dec _ atol); [right; left; repeat split; assumption|].
  destruct (Rlt_dec _ rtol); [|congruence]. destruct (Nat.ltb_spec 1 m); [|congruence]. right. right. split; [reflexivity|]. split; [lia|]. split; [lra|assumption].
Qed.
(** C137: it stops at the first iteration that reaches the absolute tolerance. *)
Theorem C137_first : forall (S : Type) (it : R -> S -> S) norm nitermax atol rtol (st : S) st' r m info,
  solve_nonlin it norm nitermax atol rtol (Nat.max 1 nitermax) st = Some (st', r, m, info) ->
  forall j, (1 <= j < m)%nat -> atol <= norm (iterates it norm st j).
Proof.
  intros S it norm nitermax atol rtol st st' r m info E j Lj.
  destruct (loop_spec it norm nitermax atol rtol (Nat.max 1 nitermax) 0 st ltac:(lia) ltac:(lia) ltac:(intros; lia)) as (m' & A & B & C & D).
  unfold solve_nonlin in E. cbn [iterates] in D. rewrite D in E. injection E as <- <- <- <-. specialize (C j Lj). unfold verdict in C.
  destruct (Nat.leb_spec nitermax j); [discriminate|]. destruct (Rlt_dec (norm (iterates it norm st j)) atol); [discriminate|lra].
Qed.
(** The codes do not tell convergence: a search that leaves the norm where it was is reported
    as "Reached Relative Tolerance" whatever the norm, and a run that reaches the tolerance in
    the last iteration as "Not converging". *)
Theorem C137_codes_refuted :
  (exists (it : R -> R -> R) st m, solve_nonlin it (fun r => r) 3 (1 / 10) (1 / 10) 3 st = Some (1000, 1000, m, 3%nat)) /\
  (exists (it : R -> R -> R) st m, solve_nonlin it (fun r => r) 2 (1 / 10) (1 / 10) 2 st = Some (0, 0, m, 1%nat)).
Proof.
  split.
  - exists (fun _ _ => 1000), 1000, 2%nat. unfold solve_nonlin. cbn [newton_loop]. unfold verdict. cbn [Nat.add Nat.leb Nat.ltb].
    destruct (Rlt_dec 1000 (1 / 10)) as [L|L]; [lra|]. replace ((1000 - 1000) / 1000) with 0 by field. rewrite Rabs_R0. destruct (Rlt_dec 0 (1 / 10)) as [L'|L']; [|lra]. reflexivity.
  - exists (fun _ r => if Rlt_dec 5 r then r - 6 else 0), 10, 2%nat. unfold solve_nonlin. cbn [newton_loop]. unfold verdict. cbn [Nat.add Nat.leb Nat.ltb].
    destruct (Rlt_dec 5 10) as [L0|L0]; [|lra]. destruct (Rlt_dec (10 - 6) (1 / 10)) as [L|L]; [lra|].
    destruct (Rlt_dec (Rabs ((10 - 6 - 10) / 10)) (1 / 10)) as [L1|L1]; [|destruct (Rlt_dec 5 (10 - 6)); [lra|reflexivity]].
    replace ((10 - 6 - 10) / 10) with (- (6 / 10)) in L1 by lra. rewrite Rabs_Ropp, Rabs_pos_eq in L1; lra.
Qed.
(** A run of three iterations that halves the norm. *)
Example C137_case : solve_nonlin (fun _ r => r / 2) (fun r => r) 4 (1 / 3) (1 / 10) 4 (2 : R) = Some (2 / 2 / 2 / 2, 2 / 2 / 2 / 2, 3%nat, 2%nat).
Proof.
  unfold solve_nonlin. cbn [newton_loop]. unfold verdict. cbn [Nat.add Nat.leb Nat.ltb].
  destruct (Rlt_dec (2 / 2) (1 / 3)); [lra|]. destruct (Rlt_dec (Rabs ((2 / 2 - 2) / 2)) (1 / 10)) as [L|L]; [exfalso; replace ((2 / 2 - 2) / 2) with (- (1 / 2)) in L by lra; rewrite Rabs_Ropp, Rabs_pos_eq in L; lra|].
  destruct (Rlt_dec (2 / 2 / 2) (1 / 3)); [lra|]. destruct (Rlt_dec (Rabs ((2 / 2 / 2 - 2 / 2) / (2 / 2))) (1 / 10)) as [L'|L']; [exfalso; replace ((2 / 2 / 2 - 2 / 2) / (2 / 2)) with (- (1 / 2)) in L' by lra; rewrite Rabs_Ropp, Rabs_pos_eq in L'; lra|].
  destruct (Rlt_dec (2 / 2 / 2 / 2) (1 / 3)); [reflexivity|lra].
Qed.

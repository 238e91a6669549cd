(** Property C105 (dead ends and the metal grid of the quasi-3D netlist). *)
From Coq Require Import Reals String Ascii List Bool ZArith Arith Lra Lia.
From Verif Require Import Common NpModel MatStrModel SpiceModel SpiceProps SpiceProps2.
From Coq Require Import List.
Import ListNotations.
Open Scope R_scope.
Open Scope list_scope.
Open Scope nat_scope.

(** The number of element terminals at a node. *)
Definition node_eqb (a b : node) : bool :=
  match a, b with
  | Top j x y, Top j' x' y' | Bot j x y, Bot j' x' y' | Met j x y, Met j' x' y' => (j =? j') && (x =? x') && (y =? y')
  | Ground, Ground | Ext, Ext => true
  | _, _ => false
  end.
Definition b2n (b : bool) : nat := if b then 1 else 0.
Definition degree (n : node) (ls : list qline) : nat :=
  list_sum (map (fun l => match l with QElement _ a b _ => b2n (node_eqb a n) + b2n (node_eqb b n) | QPrint _ => 0 end) ls).

Lemma node_eqb_eq a b : node_eqb a b = true <-> a = b.
Proof.
  split.
  - destruct a, b; simpl; try discriminate; try reflexivity; rewrite !andb_true_iff, !Nat.eqb_eq; intros [[-> ->] ->]; reflexivity.
  - intros <-. destruct a; simpl; rewrite ?Nat.eqb_refl; reflexivity.
Qed.
Lemma degree_app n a b : degree n (a ++ b) = degree n a + degree n b.
Proof. unfold degree. now rewrite map_app, list_sum_app. Qed.
Lemma degree_print n ns : degree n [QPrint ns] = 0.
Proof. reflexivity. Qed.
Lemma degree_flat_map {A} n (f : A -> list qline) l : degree n (flat_map f l) = list_sum (map (fun a => degree n (f a)) l).
Proof. induction l as [|a l IH]; [reflexivity|]. simpl. rewrite degree_app, IH. reflexivity. Qed.

(** Sums over index ranges that pick out one index. *)
Lemma sum_zero f s n : (forall i, s <= i < s + n -> f i = 0) -> list_sum (map f (seq s n)) = 0.
Proof. revert s. induction n as [|n IH]; intros s H; [reflexivity|]. simpl. rewrite H by lia. apply IH. intros. apply H. lia. Qed.
Lemma sum_single f s n a : (forall i, s <= i < s + n -> i <> a -> f i = 0) ->
  list_sum (map f (seq s n)) = if (s <=? a) && (a <? s + n) then f a else 0.
Proof.
  revert s. induction n as [|n IH]; intros s H.
  - simpl. destruct (Nat.leb_spec s a); [|reflexivity]. destruct (Nat.ltb_spec a (s + 0)); [lia|reflexivity].
  - cbn [seq map]. change (list_sum (f s :: map f (seq (S s) n))) with (f s + list_sum (map f (seq (S s) n))).
    destruct (Nat.eq_dec s a) as [->|N].
    + rewrite sum_zero by (intros; apply H; lia). destruct (Nat.leb_spec a a); [|lia]. destruct (Nat.ltb_spec a (a + S n)); [|lia]. simpl. lia.
    + rewrite IH by (intros; apply H; lia). rewrite (H s) by lia. rewrite Nat.add_0_l.
      destruct (Nat.leb_spec (S s) a); destruct (Nat.leb_spec s a); try lia; try reflexivity.
      destruct (Nat.ltb_spec a (S s + n)); destruct (Nat.ltb_spec a (s + S n)); try lia; reflexivity.
Qed.
Lemma sum_plus {A} (f h : A -> nat) l : list_sum (map (fun i => f i + h i) l) = list_sum (map f l) + list_sum (map h l).
Proof. induction l as [|a l IH]; [reflexivity|]. simpl. lia. Qed.
Lemma sum_ext f h s n : (forall i, s <= i < s + n -> f i = h i) -> list_sum (map f (seq s n)) = list_sum (map h (seq s n)).
Proof. revert s. induction n as [|n IH]; intros s H; [reflexivity|]. simpl. rewrite (H s) by lia. f_equal. apply IH. intros. apply H. lia. Qed.

(** A double sum that picks out one pixel. *)
Lemma sum2_single (F : nat -> nat -> nat) nx ny a b :
  list_sum (map (fun x => list_sum (map (fun y => if (x =? a) && (y =? b) then F x y else 0) (seq 0 ny))) (seq 0 nx)) =
  if (a <? nx) && (b <? ny) then F a b else 0.
Proof.
  rewrite (sum_single _ 0 nx a).
  - simpl. destruct (a <? nx); [|reflexivity]. rewrite (sum_single _ 0 ny b).
    + simpl. rewrite !Nat.eqb_refl. destruct (b <? ny); reflexivity.
    + intros i _ N. destruct (Nat.eqb_spec i b); [contradiction|]. now rewrite andb_false_r.
  - intros i _ N. apply sum_zero. intros y _. destruct (Nat.eqb_spec i a); [contradiction|]. reflexivity.
Qed.
Lemma sum2_plus (f h : nat -> nat -> nat) nx ny :
  list_sum (map (fun x => list_sum (map (fun y => f x y + h x y) (seq 0 ny))) (seq 0 nx)) =
  list_sum (map (fun x => list_sum (map (fun y => f x y) (seq 0 ny))) (seq 0 nx)) +
  list_sum (map (fun x => list_sum (map (fun y => h x y) (seq 0 ny))) (seq 0 nx)).
Proof. rewrite <- sum_plus. apply sum_ext. intros. apply sum_plus. Qed.
Lemma sum2_ext (f h : nat -> nat -> nat) nx ny : (forall x y, x < nx -> y < ny -> f x y = h x y) ->
  list_sum (map (fun x => list_sum (map (fun y => f x y) (seq 0 ny))) (seq 0 nx)) =
  list_sum (map (fun x => list_sum (map (fun y => h x y) (seq 0 ny))) (seq 0 nx)).
Proof. intros H. apply sum_ext. intros x Hx. apply sum_ext. intros y Hy. apply H; lia. Qed.

Lemma degree_body n g : degree n (body g) =
  list_sum (map (fun x => list_sum (map (fun y => degree n (pixel g x y)) (seq 0 (g_ny g)))) (seq 0 (g_nx g))).
Proof. unfold body. rewrite degree_flat_map. apply sum_ext. intros x _. now rewrite degree_flat_map. Qed.

(** * Metal nodes *)

Definition has_contact (g : grid) (x y : nat) : bool := is_metal (pixel_kind g x y).

Lemma degree_junction_met k n j x y s q xm ym c a b :
  degree (Met 0 a b) (create_junction k n j x y s q xm ym c) =
  if (j =? 0) && is_metal k then
    (if (x =? a) && (y =? b) then match k with Bus => 4 | _ => 3 end else 0) +
    ((if (x + 1 =? a) && (y =? b) then 1 else 0) + (if (x =? a) && (y + 1 =? b) then 1 else 0))
  else 0.
Proof.
  unfold create_junction. rewrite !degree_app.
  replace (degree (Met 0 a b) [QElement (t "d1_" ++ loc j x y) _ _ _; _; _; _; _; _; _; _; _]) with 0.
  2:{ unfold degree. cbn [map list_sum fold_right node_eqb b2n plus]. destruct (j + 1 =? n); reflexivity. }
  rewrite degree_print, Nat.add_0_l, Nat.add_0_r.
  destruct (Nat.eqb_spec j 0) as [->|]; [|reflexivity].
  destruct k; cbn [is_metal andb]; unfold degree; cbn [map list_sum fold_right node_eqb]; cbn [Nat.eqb andb]; [reflexivity| |];
    destruct (x =? a), (y =? b), (x + 1 =? a), (y + 1 =? b); reflexivity.
Qed.
Lemma degree_pixel_met g x y a b : g_isc g <> [] -> degree (Met 0 a b) (pixel g x y) =
  (if (x =? a) && (y =? b) then (if has_contact g x y then match pixel_kind g x y with Bus => 4 | _ => 3 end else 0) else 0) +
  ((if (x + 1 =? a) && (y =? b) then b2n (has_contact g x y) else 0) + (if (x =? a) && (y + 1 =? b) then b2n (has_contact g x y) else 0)).
Proof.
  intros N. unfold pixel, create_node. rewrite degree_flat_map. unfold has_contact.
  rewrite (sum_single _ 0 _ 0).
  - replace (_ && _) with true.
    + rewrite degree_junction_met. cbn [Nat.eqb andb]. destruct (is_metal (pixel_kind g x y)); [reflexivity|].
      destruct ((x =? a) && (y =? b)), ((x + 1 =? a) && (y =? b)), ((x =? a) && (y + 1 =? b)); reflexivity.
    + symmetry. rewrite andb_true_iff. split; [reflexivity|]. apply Nat.ltb_lt.
      cbn [q_isc]. destruct (pixel_kind g x y); rewrite map_length; destruct (g_isc g); simpl; try lia; contradiction.
  - intros j _ J. rewrite degree_junction_met. destruct (Nat.eqb_spec j 0); [contradiction|reflexivity].
Qed.
(** The terminals at the metal node of a pixel: those of its own contact, and one for
    each contact pixel on its left and below. *)
Lemma degree_met g a b : g_isc g <> [] -> degree (Met 0 a b) (body g) =
  (if (a <? g_nx g) && (b <? g_ny g) && has_contact g a b then match pixel_kind g a b with Bus => 4 | _ => 3 end else 0) +
  ((if (0 <? a) && (a - 1 <? g_nx g) && (b <? g_ny g) then b2n (has_contact g (a - 1) b) else 0) +
   (if (0 <? b) && (a <? g_nx g) && (b - 1 <? g_ny g) then b2n (has_contact g a (b - 1)) else 0)).
Proof.
  intros N. rewrite degree_body.
  rewrite (sum2_ext _ _ (g_nx g) (g_ny g) (fun x y _ _ => degree_pixel_met g x y a b N)).
  rewrite sum2_plus, sum2_plus. rewrite sum2_single. f_equal; [|f_equal].
  - destruct ((a <? g_nx g) && (b <? g_ny g)); reflexivity.
  - destruct a as [|a].
    + simpl. apply sum_zero. intros x _. apply sum_zero. intros y _. destruct (Nat.eqb_spec (x + 1) 0); [lia|reflexivity].
    + replace ((0 <? S a) && (S a - 1 <? g_nx g)) with (S a - 1 <? g_nx g) by reflexivity.
      rewrite <- (sum2_single (fun x y => b2n (has_contact g x y)) (g_nx g) (g_ny g) (S a - 1) b).
      apply sum2_ext. intros x y _ _. destruct (Nat.eqb_spec (x + 1) (S a)); destruct (Nat.eqb_spec x (S a - 1)); try lia; reflexivity.
  - destruct b as [|b].
    + simpl. apply sum_zero. intros x _. apply sum_zero. intros y _. destruct (Nat.eqb_spec (y + 1) 0); [lia|]. now rewrite andb_false_r.
    + replace ((0 <? S b) && (a <? g_nx g)) with (a <? g_nx g) by reflexivity.
      rewrite <- (sum2_single (fun x y => b2n (has_contact g x y)) (g_nx g) (g_ny g) a (S b - 1)).
      apply sum2_ext. intros x y _ _. destruct (Nat.eqb_spec (y + 1) (S b)); destruct (Nat.eqb_spec y (S b - 1)); try lia; reflexivity.
Qed.

(** * Sheet nodes *)

Lemma degree_junction_sheet (top : bool) k n j x y s q xm ym c j' a b :
  ((x =? a) && (y =? b)) = false ->
  degree (if top then Top j' a b else Bot j' a b) (create_junction k n j x y s q xm ym c) =
  (if (j =? j') && ((x + 1 =? a) && (y =? b)) then 1 else 0) + (if (j =? j') && ((x =? a) && (y + 1 =? b)) then 1 else 0).
Proof.
  intros E. unfold create_junction. rewrite !degree_app.
  rewrite degree_print, Nat.add_0_r.
  match goal with |- _ + degree _ ?l = _ => replace (degree (if top then Top j' a b else Bot j' a b) l) with 0 end.
  2:{ destruct (j =? 0); [|destruct top; reflexivity]. destruct k; destruct top; unfold degree; cbn [map list_sum fold_right node_eqb b2n plus];
      rewrite <- ?andb_assoc, ?E, ?andb_false_r; reflexivity. }
  rewrite Nat.add_0_r. unfold degree. cbn [map list_sum fold_right].
  destruct top; destruct (j + 1 =? n); cbn [node_eqb b2n plus]; rewrite <- ?andb_assoc, ?E, ?andb_false_r; cbn [b2n plus];
    rewrite ?Nat.add_0_r; reflexivity.
Qed.
Lemma degree_off_grid (top : bool) g j a b : g_nx g <= a \/ g_ny g <= b ->
  degree (if top then Top j a b else Bot j a b) (body g) <= 1.
Proof.
  intros O. rewrite degree_body.
  set (G := fun x y => (if (x =? a - 1) && (y =? b) then b2n (0 <? a) else 0) + (if (x =? a) && (y =? b - 1) then b2n (0 <? b) else 0)).
  assert (L : forall l (f h : nat -> nat), (forall x, In x l -> f x <= h x) -> list_sum (map f l) <= list_sum (map h l)).
  { clear. induction l as [|x l IH]; intros f h H; [reflexivity|]. simpl. specialize (H x (or_introl eq_refl)) as Hx.
    specialize (IH f h (fun y I => H y (or_intror I))). lia. }
  transitivity (list_sum (map (fun x => list_sum (map (fun y => G x y) (seq 0 (g_ny g)))) (seq 0 (g_nx g)))).
  - apply L. intros x Hx. apply L. intros y Hy. apply in_seq in Hx, Hy.
    assert (E : ((x =? a) && (y =? b)) = false).
    { destruct (Nat.eqb_spec x a); destruct (Nat.eqb_spec y b); try reflexivity. lia. }
    unfold pixel, create_node. rewrite degree_flat_map.
    rewrite (sum_ext _ (fun j0 => (if (j0 =? j) && ((x + 1 =? a) && (y =? b)) then 1 else 0) + (if (j0 =? j) && ((x =? a) && (y + 1 =? b)) then 1 else 0))).
    2:{ intros j0 _. now apply degree_junction_sheet. }
    rewrite sum_plus. unfold G. apply Nat.add_le_mono.
    + rewrite (sum_single _ 0 _ j). 2:{ intros i _ I. destruct (Nat.eqb_spec i j); [contradiction|reflexivity]. }
      rewrite Nat.eqb_refl. match goal with |- (if ?c then _ else 0) <= _ => destruct c; [|apply Nat.le_0_l] end. cbn [andb].
      destruct (Nat.eqb_spec (x + 1) a); [|simpl; lia]. destruct (Nat.eqb_spec x (a - 1)); [|lia].
      destruct (Nat.ltb_spec 0 a); [|lia]. destruct (y =? b); simpl; lia.
    + rewrite (sum_single _ 0 _ j). 2:{ intros i _ I. destruct (Nat.eqb_spec i j); [contradiction|reflexivity]. }
      rewrite Nat.eqb_refl. match goal with |- (if ?c then _ else 0) <= _ => destruct c; [|apply Nat.le_0_l] end. cbn [andb].
      destruct (Nat.eqb_spec (y + 1) b); [|rewrite andb_false_r; lia]. destruct (Nat.eqb_spec y (b - 1)); [|lia].
      destruct (Nat.ltb_spec 0 b); [|lia]. destruct (x =? a); simpl; lia.
  - unfold G. rewrite sum2_plus.
    rewrite (sum2_single (fun _ _ => b2n (0 <? a)) (g_nx g) (g_ny g) (a - 1) b).
    rewrite (sum2_single (fun _ _ => b2n (0 <? b)) (g_nx g) (g_ny g) a (b - 1)).
    destruct O.
    + destruct (Nat.ltb_spec a (g_nx g)); [lia|]. simpl andb. rewrite Nat.add_0_r. destruct (_ && _); [|lia]. destruct (0 <? a); simpl; lia.
    + destruct (Nat.ltb_spec b (g_ny g)); [lia|]. rewrite andb_false_r. simpl plus. destruct (_ && _); [|lia]. destruct (0 <? b); simpl; lia.
Qed.

(** C105 (partial).  The resistors leading out of the grid or to the metal node of a
    pixel without contact end there: such a node has at most one terminal, for sheet
    nodes off the grid always, for a metal node without contact if not both its left and
    its lower neighbour are contacts.  Missing: metal nodes between two diagonal
    contacts. *)
Theorem C105_dead_ends_partial g a b : g_isc g <> [] ->
  (g_nx g <= a \/ g_ny g <= b -> forall j, degree (Top j a b) (body g) <= 1 /\ degree (Bot j a b) (body g) <= 1) /\
  ((g_nx g <= a \/ g_ny g <= b \/ has_contact g a b = false) ->
   ~ (0 < a < g_nx g /\ 0 < b < g_ny g /\ has_contact g (a - 1) b = true /\ has_contact g a (b - 1) = true) ->
   degree (Met 0 a b) (body g) <= 1).
Proof.
  intros N. split.
  - intros O j. split; [exact (degree_off_grid true g j a b O)|exact (degree_off_grid false g j a b O)].
  - intros O D. rewrite degree_met by assumption.
    replace ((a <? g_nx g) && (b <? g_ny g) && has_contact g a b) with false.
    2:{ symmetry. destruct (Nat.ltb_spec a (g_nx g)); [|reflexivity]. destruct (Nat.ltb_spec b (g_ny g)); [|reflexivity].
        cbn [andb]. destruct O as [O|[O|O]]; [lia|lia|exact O]. }
    rewrite Nat.add_0_l.
    assert (B : forall c e : bool, (if c then b2n e else 0) <= 1) by (intros [] []; simpl; lia).
    destruct (Nat.ltb_spec 0 a); [|cbn [andb]; rewrite Nat.add_0_l; apply B].
    destruct (Nat.ltb_spec 0 b); [|cbn [andb]; rewrite Nat.add_0_r; apply B]. cbn [andb].
    destruct (Nat.ltb_spec (a - 1) (g_nx g)); destruct (Nat.ltb_spec b (g_ny g)); destruct (Nat.ltb_spec a (g_nx g)); destruct (Nat.ltb_spec (b - 1) (g_ny g)); cbn [andb];
      try (destruct (has_contact g (a - 1) b); simpl; lia); try (destruct (has_contact g a (b - 1)); simpl; lia); try (simpl; lia).
    destruct (has_contact g (a - 1) b) eqn:E1; destruct (has_contact g a (b - 1)) eqn:E2; simpl; try lia.
Qed.
Example C105_dead_ends_example :
  degree (Top 0 2 1) (body (ex_grid (fun _ _ => 0%R))) = 1 /\ degree (Bot 0 1 2) (body (ex_grid (fun _ _ => 0%R))) = 1.
Proof.
  unfold body, ex_grid, pixel, pixel_kind. simpl. destruct (Rle_lt_dec 0 55); [|lra]. split; reflexivity.
Qed.

(** Two contacts that touch only at a corner are connected through the metal node of a
    pixel that has no contact. *)
Theorem C105_diagonal_refuted : exists g,
  has_contact g 0 1 = true /\ has_contact g 1 0 = true /\ has_contact g 1 1 = false /\
  exists nm nm' v v', In (QElement nm (Met 0 0 1) (Met 0 1 1) v) (body g) /\ In (QElement nm' (Met 0 1 0) (Met 0 1 1) v') (body g).
Proof.
  exists (ex_grid (fun x y => if (x =? y)%nat then 0%R else 255%R)).
  unfold has_contact, pixel_kind. simpl g_con. cbn [Nat.eqb].
  destruct (Rle_lt_dec 255 55); [lra|]. destruct (Rle_lt_dec 255 200); [lra|]. destruct (Rle_lt_dec 0 55); [|lra].
  do 3 (split; [reflexivity|]).
  unfold body, ex_grid, pixel, pixel_kind. simpl.
  destruct (Rle_lt_dec 0 55); [|lra]. destruct (Rle_lt_dec 255 55); [lra|]. destruct (Rle_lt_dec 255 200); [lra|].
  do 4 eexists. simpl. split; repeat (first [left; reflexivity | right]).
Qed.

(** numpy primitives over ideal reals, shared by several areas.  Each one is
    the behaviour of the numpy call at the cited places. *)
From Coq Require Import Reals List ZArith Lia Lra.
From Verif Require Import Common.
Import ListNotations.
Open Scope R_scope.
Open Scope list_scope.

(** [np.ceil] as an integer (for [arange], solar_cell_solver.py:386, 396, 405). *)
Definition Rceil (x : R) : Z := (1 - up (- x))%Z.

(** [np.arange(a, b, s)], e.g. solar_cell_solver.py:386, 396, 405:
    a, a+s, ... ceil((b-a)/s) values; step 0 raises ZeroDivisionError. *)
Definition arange (a b s : R) : res (list R) :=
  if Req_EM_T s 0 then Err ZeroDivisionError
  else Ok (map (fun i => a + INR i * s) (seq 0 (Z.to_nat (Rceil ((b - a) / s))))).

(** [np.insert(np.cumsum(l), 0, 0)], e.g. solar_cell_solver.py:383, 415:
    prefix sums starting with 0. *)
Fixpoint prefix_sums (acc : R) (l : list R) : list R :=
  match l with
  | [] => [acc]
  | x :: l' => acc :: prefix_sums (acc + x) l'
  end.

(** [np.any(np.diff(l) < 0)], solar_cell_solver.py:355, 361. *)
Fixpoint any_decrease (l : list R) : bool :=
  match l with
  | x :: ((y :: _) as l') => (if Rlt_dec (y - x) 0 then true else false) || any_decrease l'
  | _ => false
  end.

(** [np.hstack] of a list of arrays, solar_cell_solver.py:384, 403, 416; no array
    at all raises ValueError. *)
Definition hstack {A} (ls : list (list A)) : res (list A) :=
  match ls with [] => Err ValueError | _ => Ok (concat ls) end.

(** A list comprehension whose body may raise (by [arange], solar_cell_solver.py:386, 396, 405). *)
Fixpoint mapR {A B} (f : A -> res B) (l : list A) : res (list B) :=
  match l with
  | [] => Ok []
  | x :: l' => let! y := f x in let! ys := mapR f l' in Ok (y :: ys)
  end.

(** * Facts *)
Lemma Rceil_spec x : IZR (Rceil x) - 1 < x <= IZR (Rceil x).
Proof.
  unfold Rceil. destruct (archimed (- x)) as [H1 H2]. rewrite minus_IZR. lra.
Qed.

Lemma arange_spec a b s l :
  0 < s -> arange a b s = Ok l ->
  (forall i x, nth_error l i = Some x -> x = a + INR i * s /\ x < b) /\
  b <= a + INR (length l) * s.
Proof.
  intros Hs H. unfold arange in H. destruct (Req_EM_T s 0) as [|Hne]; [lra|]. injection H as <-.
  set (n := Z.to_nat (Rceil ((b - a) / s))).
  pose proof (Rceil_spec ((b - a) / s)) as [C1 C2].
  assert (E : (b - a) = (b - a) / s * s) by (field; lra).
  split.
  - intros i x Hx. rewrite nth_error_map in Hx.
    destruct (nth_error (seq 0 n) i) as [j|] eqn:Ej; [|discriminate]. injection Hx as <-.
    assert (i < n)%nat as Hi.
    { rewrite <- (seq_length n 0). apply nth_error_Some. congruence. }
    rewrite (nth_error_nth' _ 0%nat) in Ej by (rewrite seq_length; lia).
    rewrite seq_nth in Ej by lia. injection Ej as <-. simpl. split; [reflexivity|].
    assert (IZR (Z.of_nat i) <= IZR (Rceil ((b - a) / s)) - 1).
    { rewrite <- minus_IZR. apply IZR_le. unfold n in Hi. lia. }
    rewrite INR_IZR_INZ. assert (IZR (Z.of_nat i) < (b - a) / s) by lra.
    assert (IZR (Z.of_nat i) * s < (b - a) / s * s) by (apply Rmult_lt_compat_r; lra). lra.
  - rewrite map_length, seq_length. rewrite INR_IZR_INZ.
    assert (IZR (Rceil ((b - a) / s)) <= IZR (Z.of_nat n)).
    { apply IZR_le. unfold n. lia. }
    assert ((b - a) / s * s <= IZR (Z.of_nat n) * s) by (apply Rmult_le_compat_r; lra). lra.
Qed.

Lemma mapR_ok {A B} (f : A -> res B) l ys :
  mapR f l = Ok ys -> length ys = length l /\
  forall i x, nth_error l i = Some x -> exists y, nth_error ys i = Some y /\ f x = Ok y.
Proof.
  revert ys. induction l as [|x l IH]; intros ys H; simpl in H.
  - injection H as <-. split; [reflexivity|]. intros [|i] ? H; discriminate.
  - destruct (f x) as [y|e] eqn:E; simpl in H; [|discriminate].
    destruct (mapR f l) as [ys'|e] eqn:E2; simpl in H; [|discriminate]. injection H as <-.
    destruct (IH ys' eq_refl) as [H1 H2]. split; [simpl; congruence|].
    intros [|i] z Hz; simpl in *; [injection Hz as <-; eauto|eauto].
Qed.

Lemma mapR_all_ok {A B} (f : A -> res B) (g : A -> B) l :
  (forall x, In x l -> f x = Ok (g x)) -> mapR f l = Ok (map g l).
Proof.
  induction l as [|x l IH]; simpl; intros H; [reflexivity|].
  rewrite H by now left. simpl. rewrite IH; [reflexivity|]. intros. apply H. now right.
Qed.

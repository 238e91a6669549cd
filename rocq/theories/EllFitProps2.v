(** C184, continued: cases, and what goes wrong in fits. *)
From Coq Require Import Reals String List Bool Arith Lia Lra.
From Verif Require Import Common InterpModel NpModel EllDataModel EllDataProps EllFitModel EllFitProps.
From Verif Require StackModel.
From Coq Require Import List.
Import ListNotations.
Open Scope R_scope.
Open Scope list_scope.

(** A stack whose optical constant is the offset of its model, and an instrument that sees it as psi *)
Definition nk0 (m : dmodel) (wl : list R) : R := e_inf m.
Definition ellips0 (ind ws : list R) (a : R) (rg : list R) : list R * list R := (map (fun _ => nth 0 ind 0) rg, map (fun _ => 150) rg).
Definition layer0 : layer := mkLayer 100 (Some (mkModel 2 None [[("An"%string, 1); ("En"%string, 3)]])) (fun _ => 0) [].
Definition data0 (psi epsi : R) : ell := mkEll "um" [70] [(70, [[0.5; psi; epsi; 150; 2]])] [(70, [])].
Definition vars0 : list (list item) := [[Name "width"; Name "e_inf"; Names ["An"; "En"]%string]].

Example C184_update_ex : NoDup (places vars0) /\ (forall p, In p (places vars0) -> is_ok (read_place [layer0] p) = true) /\
  places vars0 = [PWidth 0; PEinf 0; POsc 0 0 "An"; POsc 0 0 "En"] /\ get_variables [layer0] vars0 = Ok [100; 2; 1; 3].
Proof.
  split; [|split; [|split; reflexivity]].
  - cbn. repeat (constructor; [cbn; intros Q; repeat destruct Q as [Q|Q]; try discriminate Q; destruct Q|]). constructor.
  - cbn. intros p Q. repeat destruct Q as [<-|Q]; try reflexivity. destruct Q.
Qed.
Lemma mse0 psi epsi ind : psi <> 0 ->
  sum_opt (map (angle_sum (data0 psi epsi) [500] (fun a => ellips0 [ind] [100] a [500])) [70]) = Some (((psi - ind) / psi) ^ 2).
Proof.
  intros H. cbn [map sum_opt]. unfold angle_sum, rows_of, data0. cbn [data aget]. destruct (Req_EM_T 70 70) as [_|]; [|lra]. cbn [map sum_opt]. unfold residual.
  cbn [nth]. destruct (Req_EM_T psi 0); [contradiction|]. destruct (Req_EM_T 2 0); [lra|].
  assert (E : forall z, np_interp [500] [z] (0.5 * 1000) = z).
  { intros z. unfold np_interp, count_le. destruct (Rle_dec 500 (0.5 * 1000)); [|lra]. reflexivity. }
  unfold ellips0. cbn [fst snd map nth]. rewrite !E. f_equal. replace ((150 - 150) / 2) with 0 by field. ring.
Qed.
Lemma error1 q : 0 <= q -> error_of 1 1 (Some (q ^ 2)) = Ok (Some q).
Proof.
  intros H. unfold error_of. cbn. replace (1 / (2 * 1 - 1) * (q * (q * 1))) with (q ^ 2) by (field; lra). destruct (Rle_dec 0 (q ^ 2)) as [|N].
  - now rewrite sqrt_pow2.
  - exfalso. apply N. apply pow2_ge_0.
Qed.
(** The error and the exact fit *)
Example C184_zero_ex : Forall (fresh nk0 [500]) [layer0] /\ (0 < elements (data0 30 1))%nat /\
  misfit nk0 ellips0 (data0 30 1) [500] [layer0] = Some (((30 - 2) / 30) ^ 2) /\ (forall p, In p (places [[Name "width"]]) -> exists i, p = PWidth i).
Proof.
  split; [constructor; [exact I|constructor]|]. split.
  - unfold elements, rows_of, data0. cbn. destruct (Req_EM_T 70 70); [cbn; lia|lra].
  - split; [apply mse0; lra|]. intros p [<-|[]]. now exists 0%nat.
Qed.
(** Changing a parameter of a model does not change the error once it was calculated: a fit cannot find the
    best value, here 30, where the error is zero. *)
Theorem C184_stale_refuted : exists (nk : dmodel -> list R -> R) ellips e rg vars st st1 v,
  Forall (fresh nk rg) st /\ st1 = snd (mse nk ellips e (Some rg) vars st None) /\
  (exists st2, update_variables st1 vars v = (st2, None) /\ get_variables st2 vars = Ok v /\ error_of (elements e) (length v) (misfit nk ellips e rg st2) = Ok (Some 0)) /\
  fst (mse nk ellips e (Some rg) vars st1 (Some v)) = Ok (Some (28 / 30)).
Proof.
  exists nk0, ellips0, (data0 30 1), [500], [[Name "e_inf"%string]], [layer0].
  assert (EL : elements (data0 30 1) = 1%nat) by (unfold elements, rows_of, data0; cbn; destruct (Req_EM_T 70 70); [reflexivity|lra]).
  eexists. exists [30]. split; [constructor; [exact I|constructor]|]. split; [reflexivity|].
  assert (S1 : snd (mse nk0 ellips0 (data0 30 1) (Some [500]) [[Name "e_inf"%string]] [layer0] None) =
    [mkLayer 100 (Some (mkModel 2 None [[("An"%string, 1); ("En"%string, 3)]])) (fun _ => 0) [([500], 2)]]) by reflexivity.
  rewrite S1. set (st1 := [mkLayer 100 (Some (mkModel 2 None [[("An"%string, 1); ("En"%string, 3)]])) (fun _ => 0) [([500], 2)]]).
  set (st2 := [mkLayer 100 (Some (mkModel 30 None [[("An"%string, 1); ("En"%string, 3)]])) (fun _ => 0) [([500], 2)]]).
  assert (U : update_variables st1 [[Name "e_inf"%string]] [30] = (st2, None)) by reflexivity. split.
  - exists st2. split; [exact U|]. split; [reflexivity|]. rewrite EL.
    assert (M : misfit nk0 ellips0 (data0 30 1) [500] st2 = Some (((30 - 30) / 30) ^ 2)) by (apply (mse0 30 1 30); lra).
    rewrite M. replace ((30 - 30) / 30) with 0 by field. apply error1. lra.
  - unfold mse. rewrite U, EL. assert (I2 : fst (stack_indices nk0 st2 [500]) = [2]).
    { cbn [stack_indices fst st2 indices]. unfold indices, StackModel.cached. cbn [StackModel.lookup cache]. destruct (wl_dec [500] [500]); [reflexivity|congruence]. }
    cbn [fst]. rewrite I2. assert (M := mse0 30 1 2 ltac:(lra)). cbn [length]. change (map width st2) with [100]. change (angles (data0 30 1)) with [70]. rewrite M.
    replace ((30 - 2) / 30) with (28 / 30) by field. apply error1. lra.
Qed.
(** The error of psi does not matter; that of Delta does. *)
Theorem C184_psi_error_refuted : exists (nk : dmodel -> list R -> R) ellips e e' rg vars st m,
  angles e = angles e' /\ rows_of 70 (data e) = [[0.5; 30; 1; 150; 2]] /\ rows_of 70 (data e') = [[0.5; 30; 1000; 150; 2]] /\ m <> 0 /\
  misfit nk ellips e rg st = Some m /\ misfit nk ellips e' rg st = Some m /\
  fst (mse nk ellips e (Some rg) vars st None) = fst (mse nk ellips e' (Some rg) vars st None).
Proof.
  exists nk0, ellips0, (data0 30 1), (data0 30 1000), [500], [[]], [layer0], (((30 - 2) / 30) ^ 2).
  assert (R0 : forall x, rows_of 70 (data (data0 30 x)) = [[0.5; 30; x; 150; 2]]) by (intros x; unfold rows_of, data0; cbn; destruct (Req_EM_T 70 70); [reflexivity|lra]).
  assert (M : forall x, misfit nk0 ellips0 (data0 30 x) [500] [layer0] = Some (((30 - 2) / 30) ^ 2)) by (intros x; apply mse0; lra).
  repeat split; auto; try apply R0; try apply M; [|].
  - apply pow_nonzero. lra.
  - rewrite !C184_mse by (constructor; [exact I|constructor]). rewrite !M. unfold elements. cbn [map angles data0 fold_right]. now rewrite !R0.
Qed.
(** A variable that does not exist can be set, without effect on those that do. *)
Theorem C184_unknown_refuted : exists (st st' : list (@layer R)) vars v, update_variables st vars v = (st', None) /\
  get_variables st vars = Err KeyError /\ get_variables st' vars = Ok v /\
  (forall p q, In p (places vars) -> is_ok (read_place st q) = true -> q <> p) .
Proof.
  exists [layer0]. eexists. exists [[Names ["Am"%string]]], [5]. split; [reflexivity|]. split; [reflexivity|]. split; [reflexivity|].
  intros p q [<-|[]] H ->. discriminate H.
Qed.
(** The name of a parameter outside of a list is read letter by letter. *)
Theorem C184_letters_refuted : exists (st : list (@layer R)) vars, vars = [[Name "An"%string]] /\ read_place st (POsc 0 0 "An") = Ok 1 /\
  get_variables st vars = Err KeyError /\ places vars = [POsc 0 0 "A"; POsc 0 0 "n"] /\
  (exists st', update_variables st vars [5; 6] = (st', None) /\ read_place st' (POsc 0 0 "An") = Ok 1).
Proof.
  exists [layer0], [[Name "An"%string]]. split; [reflexivity|]. split; [reflexivity|]. split; [reflexivity|]. split; [reflexivity|].
  eexists. split; reflexivity.
Qed.
(** As many points as half the variables: division by zero. *)
Theorem C184_zero_division : forall (nk : dmodel -> list R -> R) ellips e rg vars st v st', update_variables st vars v = (st', None) ->
  length v = (2 * elements e)%nat -> fst (mse nk ellips e (Some rg) vars st (Some v)) = Err ZeroDivisionError.
Proof.
  intros nk ellips e rg vars st v st' H HL. unfold mse. rewrite H. cbn [fst]. unfold error_of. rewrite HL, Nat.eqb_refl. reflexivity.
Qed.
Example C184_correlations_ex : let c := [[4; 1]; [1; 9]] in 0 < nth 0 (nth 0 c []) 0 /\ 0 < nth 1 (nth 1 c []) 0 /\ (nth 1 (nth 0 c []) 0) ^ 2 <= nth 0 (nth 0 c []) 0 * nth 1 (nth 1 c []) 0 /\ errors c 1 = [1.65 * sqrt 4; 1.65 * sqrt 9].
Proof. cbn. split; [lra|]. split; [lra|]. split; [lra|]. unfold errors. cbn. rewrite !Rmult_1_l. reflexivity. Qed.

(** The layer of a variable. *)
Definition layer_of (p : place) : nat := match p with PWidth i | PEinf i | PEgap i | POsc i _ _ => i end.
(** Variables are accepted as they are exactly if there is a list of them for each layer, and then every
    variable belongs to a layer of the stack. *)
Theorem C184_set : forall (st : list (@layer R)) vars,
  (length vars = length st -> set_variables st vars = Ok vars) /\ (length vars <> length st -> set_variables st vars = Err AssertionError) /\
  forall v p, set_variables st vars = Ok v -> In p (places v) -> (layer_of p < length st)%nat.
Proof.
  intros st vars. unfold set_variables. split; [intros ->; now rewrite Nat.eqb_refl|]. split; [intros h; apply Nat.eqb_neq in h; now rewrite h|].
  intros v p e hp. destruct (Nat.eqb_spec (length vars) (length st)) as [h|h]; [|discriminate]. injection e as <-. rewrite <- h. clear h.
  assert (L : forall its i m p, In p (layer_places i m its) -> layer_of p = i).
  { clear. induction its as [|it its IH]; intros i m p hp; [destruct hp|]. cbn [layer_places] in hp. apply in_app_iff in hp as [hp|hp]; [|exact (IH _ _ _ hp)].
    unfold item_places in hp. destruct it as [s|l].
    - destruct (String.eqb s "width"); [destruct hp as [<-|[]]; reflexivity|]. destruct (String.eqb s "e_inf"); [destruct hp as [<-|[]]; reflexivity|].
      destruct (String.eqb s "e_gap"); [destruct hp as [<-|[]]; reflexivity|]. cbn [fst] in hp. apply in_map_iff in hp as (x & <- & _). reflexivity.
    - cbn [fst] in hp. apply in_map_iff in hp as (x & <- & _). reflexivity. }
  unfold places in hp. assert (H : forall vs i, In p (places_from i vs) -> (layer_of p < i + length vs)%nat).
  { intros vs. induction vs as [|its vs IH]; intros i k; [destruct k|]. cbn [places_from length] in k |- *. apply in_app_iff in k. destruct k as [k|k]; [apply L in k; lia|apply IH in k; lia]. }
  exact (H vars 0%nat hp).
Qed.
Example C184_set_ex : exists st : list (@layer R), set_variables st [[Name "width"%string]] = Ok [[Name "width"%string]] /\ set_variables st [] = Err AssertionError.
Proof. exists [mkLayer 1 None (fun _ => 0) []]. split; reflexivity. Qed.

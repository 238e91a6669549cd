(** C162: what DE.solve returns. C163: the parallel class. *)
From Coq Require Import Reals List Bool Arith ZArith Lia Lra FunctionalExtensionality.
From Verif Require Import Common EvolModel.
Import ListNotations.
Open Scope list_scope.

(** * C162 *)
(** A step is sound when the best individual exists; then it has a row and a fitness. *)
Definition individual (s : de_step) : list R := nth (st_best s) (st_heap s (st_population s)) [].
Definition best_fitness (s : de_step) : R := nth (st_best s) (st_fitness s) 0%R.
Definition average (s : de_step) : R := (fold_right Rplus 0 (st_fitness s) / INR (length (st_fitness s)))%R.
Definition sound (s : de_step) : Prop :=
  (st_best s < length (st_heap s (st_population s)))%nat /\ (st_best s < length (st_fitness s))%nat.
(** [last_of_each p l out]: [out] has the last element of every block of [p], incomplete ones
    left out. *)
Definition last_of_each {A} (p : nat) (l out : list A) : Prop :=
  length out = (length l / p)%nat /\ forall k, (k < length out)%nat -> nth_error out k = nth_error l (k * p + p - 1).
Lemma nth_error_skipn_ {A} n : forall (l : list A) k, nth_error (skipn n l) k = nth_error l (n + k).
Proof. induction n as [|n IH]; intros [|x l] k; cbn; try reflexivity; [now destruct k|apply IH]. Qed.
Lemma every_spec {A} p : (0 < p)%nat -> forall fuel (l : list A), (length l <= fuel)%nat -> last_of_each p l (every_from fuel p l).
Proof.
  intros Hp. induction fuel as [|f IH]; intros l HL.
  - destruct l; [|cbn in HL; lia]. split; [cbn; now rewrite Nat.div_0_l by lia|cbn; lia].
  - cbn [every_from]. assert (HS := skipn_length (p - 1) l). destruct (skipn (p - 1) l) as [|x r] eqn:E.
    + cbn in HS. split; [|cbn; lia]. cbn. symmetry. apply Nat.div_small. lia.
    + cbn [length] in HS. assert (Hr : (length r <= f)%nat) by lia. destruct (IH r Hr) as [A1 A2].
      assert (EL : length l = (length r + 1 * p)%nat) by lia.
      split.
      * cbn [length]. rewrite A1, EL, Nat.div_add by lia. lia.
      * intros [|k] Hk.
        -- cbn [nth_error]. replace (0 * p + p - 1)%nat with (p - 1 + 0)%nat by lia. rewrite <- nth_error_skipn_, E. reflexivity.
        -- cbn [nth_error]. cbn [length] in Hk. rewrite A2 by lia.
           replace (S k * p + p - 1)%nat with (p - 1 + S (k * p + p - 1))%nat by lia. rewrite <- nth_error_skipn_, E. reflexivity.
Qed.
Lemma every_ok {A} p (l : list A) : (0 < p)%nat -> exists out, every p l = Ok out /\ last_of_each p l out.
Proof. intros Hp. destruct p as [|p]; [lia|]. eexists. split; [reflexivity|]. apply every_spec; lia. Qed.
Lemma every_pos {A} p (l : list A) : (0 < p)%nat -> every p l = Ok (every_from (length l) p l).
Proof. destruct p; [lia|reflexivity]. Qed.
Lemma every_map {A B} (f : A -> B) p : forall fuel l, every_from fuel p (map f l) = map f (every_from fuel p l).
Proof.
  induction fuel as [|n IH]; intros l; [reflexivity|]. cbn [every_from]. rewrite skipn_map.
  destruct (skipn (p - 1) l); [reflexivity|]. cbn [map]. now rewrite IH.
Qed.

Section Solve.
Context (denormalize : list R -> list R) (maxiters popsize : nat).
Definition within (s : de_step) : Prop := (st_iteration s <= maxiters)%nat.
Definition views (ss : list de_step) : list view := map (fun s => (st_population s, st_best s)) ss.
Lemma contents_sound s : sound s -> contents (st_heap s) (st_population s, st_best s) = Ok (individual s).
Proof.
  intros [H _]. unfold contents, individual. cbn [fst snd].
  destruct (nth_error (st_heap s (st_population s)) (st_best s)) eqn:E; [|apply nth_error_None in E; lia].
  now rewrite (nth_error_nth _ _ [] E).
Qed.
Lemma fitness_sound s : sound s -> nth_error (st_fitness s) (st_best s) = Some (best_fitness s).
Proof. intros [_ H]. unfold best_fitness. now apply nth_error_nth'. Qed.
Lemma evolve_within pre : Forall within pre -> Forall sound pre -> forall e rest,
  evolve maxiters e (pre ++ rest) =
  evolve maxiters (Evolution (ev_views e ++ views pre) (ev_best e ++ map best_fitness pre) (ev_mean e ++ map average pre)
                             (match rev pre with [] => ev_last e | s :: _ => Some s end)) rest.
Proof.
  induction pre as [|s pre IH]; intros HW HS e rest.
  - cbn [views map rev app]. rewrite !app_nil_r. now destruct e.
  - inversion HW as [|? ? W1 W2]; subst. inversion HS as [|? ? S1 S2]; subst. cbn [app evolve].
    destruct (Nat.ltb_spec maxiters (st_iteration s)) as [L|L]; [unfold within in W1; lia|].
    rewrite (contents_sound s S1). cbn [bindR]. rewrite (fitness_sound s S1). rewrite (IH W2 S2).
    cbn [ev_views ev_best ev_mean ev_last views map rev]. rewrite <- !app_assoc. cbn [app].
    destruct (rev pre) as [|x r] eqn:E; [|reflexivity]. reflexivity.
Qed.
(** The best individual and its fitness are those of the first step past the last iteration, which
    is not in the three lists; these have the last step of every [popsize] steps before it. What
    the iterator would do later does not matter. [rows]: the rows as they are in the end. *)
Theorem C162_result : forall pre s rest, (0 < popsize)%nat -> Forall within pre -> Forall sound pre ->
  ~ within s -> sound s ->
  (forall x, In x pre -> (st_best x < length (st_heap s (st_population x)))%nat) ->
  exists r rows, solve denormalize maxiters popsize (pre ++ s :: rest) = Ok r /\
    de_best r = denormalize (individual s) /\ de_fitness r = best_fitness s /\
    last_of_each popsize (map best_fitness pre) (de_best_evo r) /\
    last_of_each popsize (map average pre) (de_mean_evo r) /\
    last_of_each popsize (map (fun x => nth (st_best x) (st_heap s (st_population x)) []) pre) rows /\
    de_pop_evo r = map denormalize rows.
Proof.
  intros pre s rest Hp HW HS Hs Ss Hrow. unfold solve. rewrite (evolve_within pre HW HS). cbn [ev_views ev_best ev_mean ev_last app evolve].
  destruct (Nat.ltb_spec maxiters (st_iteration s)) as [L|L]; [|exfalso; apply Hs; exact L].
  cbn [bindR ev_last ev_views ev_best ev_mean]. rewrite (contents_sound s Ss). cbn [bindR]. rewrite (fitness_sound s Ss).
  set (final := fun x : de_step => nth (st_best x) (st_heap s (st_population x)) []).
  assert (EV : exists vs, every popsize (views pre) = Ok vs /\ rows_of (st_heap s) vs = Ok (every_from (length pre) popsize (map final pre))).
  { eexists. split; [apply every_pos; exact Hp|]. unfold views. rewrite !every_map, map_length.
    assert (HI : forall x, In x (every_from (length pre) popsize pre) -> In x pre).
    { destruct (every_spec popsize Hp (length pre) pre (le_n _)) as [_ A2]. intros x Hx. apply In_nth_error in Hx as [k Hk].
      assert (k < length (every_from (length pre) popsize pre))%nat by (apply nth_error_Some; congruence).
      rewrite A2 in Hk by assumption. eapply nth_error_In; eassumption. }
    revert HI. generalize (every_from (length pre) popsize pre) as l. induction l as [|x l IH]; intros HI; [reflexivity|].
    cbn [map rows_of]. unfold contents at 1. cbn [fst snd].
    destruct (nth_error (st_heap s (st_population x)) (st_best x)) eqn:E.
    2:{ apply nth_error_None in E. specialize (Hrow x (HI x (or_introl eq_refl))). lia. }
    cbn [bindR]. rewrite IH by (intros y Hy; apply HI; now right). cbn [bindR]. unfold final at 2.
    rewrite (nth_error_nth _ _ [] E). reflexivity. }
  destruct EV as (vs & EV & ER). rewrite EV. cbn [bindR]. rewrite ER. cbn [bindR].
  destruct (every_ok popsize (map best_fitness pre) Hp) as (bs & EB & LB). rewrite EB. cbn [bindR].
  destruct (every_ok popsize (map average pre) Hp) as (ms & EM & LM). rewrite EM. cbn [bindR].
  eexists _, _. split; [reflexivity|]. cbn [de_best de_fitness de_best_evo de_mean_evo de_pop_evo].
  repeat (split; [first [reflexivity|assumption]|]). split; [|reflexivity].
  rewrite <- (map_length final pre). apply every_spec; [exact Hp|lia].
Qed.
(** If the iterator ends by itself, the result is that of its last step. *)
Theorem C162_exhausted : forall pre s r, Forall within (pre ++ [s]) -> Forall sound (pre ++ [s]) ->
  solve denormalize maxiters popsize (pre ++ [s]) = Ok r ->
  de_best r = denormalize (individual s) /\ de_fitness r = best_fitness s.
Proof.
  intros pre s r HW HS H. unfold solve in H. rewrite <- (app_nil_r (pre ++ [s])) in H. rewrite (evolve_within _ HW HS) in H.
  cbn [ev_views ev_best ev_mean ev_last app evolve bindR] in H. rewrite rev_app_distr in H. cbn [rev app] in H.
  apply Forall_app in HS as [_ HS]. apply Forall_inv in HS. rewrite (contents_sound s HS) in H. cbn [bindR] in H.
  rewrite (fitness_sound s HS) in H.
  destruct (every popsize _) as [vs|] in H; [|discriminate]. cbn [bindR] in H. destruct (rows_of _ _) as [rs|] in H; [|discriminate].
  cbn [bindR] in H. destruct (every popsize _) as [bs|] in H; [|discriminate]. cbn [bindR] in H.
  destruct (every popsize _) as [ms|] in H; [|discriminate]. cbn [bindR] in H.
  assert (E : r = Result (denormalize (individual s)) (best_fitness s) (map denormalize rs) bs ms) by congruence.
  rewrite E. split; reflexivity.
Qed.
(** No step, or no individuals. *)
Theorem C162_empty : solve denormalize maxiters popsize [] = Err UnboundLocalError.
Proof. reflexivity. Qed.
(** If the best fitness never gets worse, the one returned is at most everything in the list of
    best ones, and that list never increases; if the best one is a least one, every mean is at
    least the best fitness beside it. *)
Theorem C162_convergence : forall pre s rest r, (0 < popsize)%nat -> Forall within pre -> Forall sound pre -> ~ within s -> sound s ->
  (forall x, In x pre -> (st_best x < length (st_heap s (st_population x)))%nat) ->
  (forall i j x y, (i <= j)%nat -> nth_error (pre ++ [s]) i = Some x -> nth_error (pre ++ [s]) j = Some y -> (best_fitness y <= best_fitness x)%R) ->
  solve denormalize maxiters popsize (pre ++ s :: rest) = Ok r ->
  (forall f, In f (de_best_evo r) -> (de_fitness r <= f)%R) /\
  (forall i j, (i <= j)%nat -> (j < length (de_best_evo r))%nat -> (nth j (de_best_evo r) 0 <= nth i (de_best_evo r) 0)%R) /\
  length (de_mean_evo r) = length (de_best_evo r) /\ length (de_pop_evo r) = length (de_best_evo r) /\
  ((forall x, In x pre -> forall f, In f (st_fitness x) -> (best_fitness x <= f)%R) ->
    forall i, (i < length (de_best_evo r))%nat -> (nth i (de_best_evo r) 0 <= nth i (de_mean_evo r) 0)%R).
Proof.
  intros pre s rest r Hp HW HS Hs Ss Hrow HM H.
  destruct (C162_result pre s rest Hp HW HS Hs Ss Hrow) as (r' & rows & E & E1 & E2 & [B1 B2] & [M1 M2] & [R1 R2] & E6).
  assert (ER : r' = r) by congruence. subst r'. rewrite map_length in B1, M1, R1.
  assert (BD : forall k, (k < length (de_best_evo r))%nat -> (k * popsize + popsize - 1 < length pre)%nat).
  { intros k Hk. destruct (nth_error (map best_fitness pre) (k * popsize + popsize - 1)) eqn:EE.
    - rewrite <- (map_length best_fitness pre). apply nth_error_Some. congruence.
    - rewrite <- B2 in EE by exact Hk. apply nth_error_None in EE. lia. }
  assert (BV : forall k, (k < length (de_best_evo r))%nat -> exists x, nth_error pre (k * popsize + popsize - 1) = Some x /\
    nth k (de_best_evo r) 0%R = best_fitness x /\ nth k (de_mean_evo r) 0%R = average x).
  { intros k Hk. destruct (nth_error pre (k * popsize + popsize - 1)) as [x|] eqn:EE.
    2:{ apply nth_error_None in EE. specialize (BD k Hk). lia. }
    exists x. split; [reflexivity|]. split.
    - apply nth_error_nth. rewrite B2 by exact Hk. now apply map_nth_error.
    - apply nth_error_nth. rewrite M2 by lia. now apply map_nth_error. }
  split.
  { intros f Hf. apply (In_nth _ _ 0%R) in Hf as (k & Hk & <-). destruct (BV k Hk) as (x & Hx & -> & _). rewrite E2.
    apply (HM (k * popsize + popsize - 1)%nat (length pre)).
    - specialize (BD k Hk). lia.
    - rewrite nth_error_app1 by (apply BD; exact Hk). exact Hx.
    - rewrite nth_error_app2, Nat.sub_diag by lia. reflexivity. }
  split.
  { intros i j Hij Hj. destruct (BV i) as (x & Hx & -> & _); [lia|]. destruct (BV j Hj) as (y & Hy & -> & _).
    apply (HM (i * popsize + popsize - 1)%nat (j * popsize + popsize - 1)%nat).
    - assert (i * popsize <= j * popsize)%nat by (apply Nat.mul_le_mono_r; exact Hij). lia.
    - rewrite nth_error_app1 by (apply BD; lia). exact Hx.
    - rewrite nth_error_app1 by (apply BD; lia). exact Hy. }
  split; [now rewrite B1, M1|]. split; [rewrite E6, map_length; now rewrite B1, R1|].
  intros HB i Hi. destruct (BV i Hi) as (x & Hx & -> & ->). apply nth_error_In in Hx. rewrite Forall_forall in HS.
  destruct (HS x Hx) as [_ HL]. specialize (HB x Hx). unfold average.
  assert (A : forall l b, (forall f, In f l -> (b <= f)%R) -> (INR (length l) * b <= fold_right Rplus 0 l)%R).
  { clear. induction l as [|a l IH]; intros b Hb; [cbn; lra|]. cbn [length fold_right]. rewrite S_INR.
    specialize (Hb a (or_introl eq_refl)) as Ha. specialize (IH b (fun f Hf => Hb f (or_intror Hf))). lra. }
  specialize (A _ _ HB). assert (0 < INR (length (st_fitness x)))%R by (apply lt_0_INR; lia).
  apply (Rmult_le_reg_l (INR (length (st_fitness x)))); [assumption|]. unfold Rdiv.
  replace (INR (length (st_fitness x)) * (fold_right Rplus 0 (st_fitness x) * / INR (length (st_fitness x))))%R
    with (fold_right Rplus 0 (st_fitness x))%R by (field; lra). exact A.
Qed.
(** The list of individuals is right if the rows of earlier steps are never written again (an
    iterator that makes a new population each time, or only writes to other rows). *)
Theorem C162_individuals_partial : forall pre s rest r, (0 < popsize)%nat -> Forall within pre -> Forall sound pre -> ~ within s -> sound s ->
  (forall x, In x pre -> nth_error (st_heap s (st_population x)) (st_best x) = nth_error (st_heap x (st_population x)) (st_best x)) ->
  solve denormalize maxiters popsize (pre ++ s :: rest) = Ok r ->
  last_of_each popsize (map (fun x => denormalize (individual x)) pre) (de_pop_evo r).
Proof.
  intros pre s rest r Hp HW HS Hs Ss HU H.
  assert (Hrow : forall x, In x pre -> (st_best x < length (st_heap s (st_population x)))%nat).
  { intros x Hx. apply nth_error_Some. rewrite (HU x Hx). apply nth_error_Some. rewrite Forall_forall in HS. now destruct (HS x Hx). }
  destruct (C162_result pre s rest Hp HW HS Hs Ss Hrow) as (r' & rows & E & E1 & E2 & _ & _ & [R1 R2] & E6).
  assert (ER : r' = r) by congruence. subst r'. rewrite E6. rewrite map_length in R1. split; [now rewrite !map_length|].
  intros k Hk. rewrite map_length in Hk. specialize (R2 k Hk). rewrite !nth_error_map in *. rewrite R2.
  destruct (nth_error pre (k * popsize + popsize - 1)) as [x|] eqn:EX; [|reflexivity]. cbn [option_map]. do 2 f_equal.
  apply nth_error_In in EX. unfold individual. rewrite <- !nth_default_eq. unfold nth_default. now rewrite (HU x EX).
Qed.
End Solve.
(** The iterator of yabox writes the better individuals into the same array: the rows kept are then
    views of it, and the list shows later individuals in the place of earlier ones. *)
Theorem C162_individuals_refuted : exists s1 s2 r, sound s1 /\ sound s2 /\ (st_iteration s1 <= 1)%nat /\ (1 < st_iteration s2)%nat /\
  st_population s1 = st_population s2 /\ solve (fun x => x) 1 1 [s1; s2] = Ok r /\
  de_best_evo r = [best_fitness s1] /\ de_pop_evo r <> [individual s1].
Proof.
  exists (Step 1 0 0 [3%R; 4%R] (fun _ => [[0.25%R]; [0.75%R]])), (Step 2 0 0 [2%R; 4%R] (fun _ => [[0.5%R]; [0.75%R]])).
  eexists. repeat split; cbn; try lia; try reflexivity. intros E. injection E as E. lra.
Qed.

(** * C163 *)
Section Parallel.
Context (denormalize : list R -> list R) (steps : (list (list R) -> res (list R)) -> res (list de_step)).
(** With the same seed the parallel class gives what the sequential one gives, whatever the number
    of processes. *)
Theorem C163_parallel : forall maxiters popsize fobj processes,
  snd (pde_solve denormalize steps maxiters popsize fobj (new_pool processes)) = de_solve denormalize steps maxiters popsize fobj.
Proof.
  intros maxiters popsize fobj processes. unfold pde_solve, de_solve. cbn [snd].
  assert (E : evaluate fobj (new_pool processes) = (fun pd => Ok (map fobj pd))); [|now rewrite E].
  apply functional_extensionality. intros pd. unfold new_pool. destruct processes as [n|]; [|reflexivity]. now destruct (0 <? n)%Z.
Qed.
(** Without processes the same object can be used again. *)
Theorem C163_again_partial : forall maxiters popsize fobj n, (n <= 0)%Z ->
  let first := pde_solve denormalize steps maxiters popsize fobj (new_pool (Some n)) in
  pde_solve denormalize steps maxiters popsize fobj (fst first) = first.
Proof.
  intros maxiters popsize fobj n Hn. cbv zeta. unfold new_pool. destruct (Z.ltb_spec 0 n); [lia|]. reflexivity.
Qed.
(** With processes it cannot: the pool was terminated by the first run. *)
Theorem C163_again_refuted : forall maxiters popsize fobj processes,
  (forall f e, (forall pd, f pd = Err e) -> steps f = Err e) ->
  match processes with None => True | Some n => (0 < n)%Z end ->
  let first := pde_solve denormalize steps maxiters popsize fobj (new_pool processes) in
  snd (pde_solve denormalize steps maxiters popsize fobj (fst first)) = Err ValueError.
Proof.
  intros maxiters popsize fobj processes HE Hn. cbv zeta.
  assert (E : new_pool processes = Running).
  { destruct processes as [n|]; [|reflexivity]. cbn. destruct (Z.ltb_spec 0 n); [reflexivity|lia]. }
  rewrite E. unfold pde_solve. cbn [fst snd evaluate]. rewrite (HE _ ValueError); reflexivity.
Qed.
End Parallel.

(** * Examples *)
Definition run_of : list de_step :=
  let st i b f h := Step i b 0 f (fun _ => h) in
  [st 0%nat 0%nat [5; 7]%R [[0.5]; [0.25]]%R; st 0%nat 1%nat [5; 4]%R [[0.5]; [0.75]]%R;
   st 1%nat 1%nat [5; 4]%R [[0.5]; [0.75]]%R; st 1%nat 0%nat [3; 4]%R [[0.125]; [0.75]]%R].
Example C162_example : exists s, let pre := run_of in
  Forall (within 1) pre /\ Forall sound pre /\ ~ within 1 s /\ sound s /\
  (forall x, In x pre -> (st_best x < length (st_heap s (st_population x)))%nat) /\
  (forall i j x y, (i <= j)%nat -> nth_error (pre ++ [s]) i = Some x -> nth_error (pre ++ [s]) j = Some y -> (best_fitness y <= best_fitness x)%R).
Proof.
  exists (Step 2 0 0 [2; 4]%R (fun _ => [[0.125]; [0.75]]%R)). cbv zeta. unfold run_of.
  split; [repeat constructor|]. split; [repeat constructor; cbn; lia|]. split; [unfold within; cbn; lia|]. split; [split; cbn; lia|].
  split.
  { intros x Hx. cbn in Hx. repeat (destruct Hx as [<-|Hx]; [cbn; lia|]). contradiction. }
  intros i j x y Hij Hi Hj.
  do 5 (destruct i as [|i]; [do 5 (destruct j as [|j]; [cbn in Hi, Hj; injection Hi as <-; injection Hj as <-; unfold best_fitness; cbn; first [lra|lia]|]);
    cbn in Hj; destruct j; discriminate|]).
  cbn in Hi. destruct i; discriminate.
Qed.
(** The steps of an iterator that evaluates its first population first. *)
Example C163_example : let steps f := bindR (f [[0.5]; [0.75]]%R) (fun fit => Ok [Step 1 0 0 fit (fun _ => [[0.5]; [0.75]]%R)]) in
  (forall f e, (forall pd, f pd = Err e) -> steps f = Err e) /\
  is_ok (de_solve (fun x => x) steps 5 2 (fun x => nth 0 x 0%R)) = true.
Proof. cbv zeta. split; [|reflexivity]. intros f e H. now rewrite H. Qed.

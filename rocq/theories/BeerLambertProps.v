(** Properties C39, C40, C41 and C81 about the Beer-Lambert optics. *)
From Coq Require Import Reals String List Arith Bool Lra Lia.
From Coquelicot Require Import Coquelicot.
From Coq Require Import List.
From Verif Require Import Common InterpModel InterpProps NpModel BeerLambertModel.
Import ListNotations.
Open Scope R_scope.
Open Scope list_scope.

(** * Partial sums *)
Definition total (l : list R) : R := fold_right Rplus 0 l.
Lemma total_app a b : total (a ++ b) = total a + total b.
Proof. unfold total. induction a as [|x a IH]; cbn; [lra|]. rewrite IH. lra. Qed.
Lemma psums_length l : forall a, length (psums a l) = S (length l).
Proof. induction l; intros; cbn; [easy|now rewrite IHl]. Qed.
Lemma psums_nth l : forall a i, (i <= length l)%nat -> at_ (psums a l) i = a + total (firstn i l).
Proof.
  unfold total. induction l as [|x l IH]; intros a [|i]; cbn; intros H; try lra; try lia.
  rewrite IH by lia. lra.
Qed.
Lemma last_nth (l : list R) : last_ l = at_ l (length l - 1).
Proof.
  unfold last_. induction l as [|x l IH]; [easy|]. destruct l as [|y l]; [easy|].
  change (last (x :: y :: l) 0) with (last (y :: l) 0). rewrite IH. cbn [length]. replace (S (S (length l)) - 1)%nat with (S (S (length l) - 1)) by lia. easy.
Qed.
Lemma psums_last l a : last_ (psums a l) = a + total l.
Proof. rewrite last_nth, psums_length, psums_nth by lia. f_equal. f_equal. apply firstn_all2. lia. Qed.
Lemma psums_step l a i : (i < length l)%nat -> at_ (psums a l) (S i) = at_ (psums a l) i + at_ l i.
Proof.
  intros H. rewrite !psums_nth by lia.
  assert (E : firstn (S i) l = firstn i l ++ [at_ l i]).
  { revert i H. induction l as [|x l IH]; intros [|i] H; cbn in *; try lia; [easy|]. now rewrite IH by lia. }
  rewrite E, total_app. unfold total at 2. cbn. lra.
Qed.
Lemma psums_increasing l a : Forall (fun x => 0 < x) l -> increasing (psums a l).
Proof.
  intros H i j Hij. rewrite psums_length in Hij. destruct Hij as [Hij Hj]. induction j as [|j IH]; [lia|].
  rewrite psums_step by lia. assert (0 < at_ l j) by (rewrite Forall_forall in H; apply H, nth_In; lia).
  destruct (Nat.eq_dec i j) as [->|N]; [lra|]. assert (at_ (psums a l) i < at_ (psums a l) j) by (apply IH; lia). lra.
Qed.

(** * C39: energy *)
Definition nonneg_entry (e : entry) : Prop := 0 <= fst e /\ 0 <= snd e.
Lemma OD_nonneg es : Forall nonneg_entry es -> 0 <= last_ (OD es).
Proof.
  intros H. unfold OD. rewrite psums_last. unfold total. induction H as [|e es [A B] H IH]; cbn; [lra|].
  assert (0 <= snd e * fst e) by now apply Rmult_le_pos. lra.
Qed.
Lemma exp_neg_01 x : 0 <= x -> 0 < exp (- x) <= 1.
Proof.
  intros H. split; [apply exp_pos|]. rewrite <- exp_0. destruct H as [H| <-]; [left; apply exp_increasing; lra|rewrite Ropp_0; lra].
Qed.

(** A physical element: widths and absorption coefficients are not negative, and a
    junction without layers has a width and a non-negative absorptance. *)
Definition physical (x : element) : Prop :=
  match x with
  | ELayer e => nonneg_entry e
  | ETunnel l => Forall nonneg_entry l
  | EJunction l k _ w A => match k with KOther => Forall nonneg_entry l | _ => 0 < w /\ 0 <= A end
  end.
Lemma alf_ok w A : 0 < w -> exists a, alf w A = Ok a /\ (0 <= A -> 0 <= a) /\ 1 - exp (- a * w) = Rmin A (999 / 1000).
Proof.
  intros Hw. unfold alf. destruct Req_EM_T; [lra|]. eexists. split; [reflexivity|].
  assert (P : 0 < Rmax (1 - A) (1 / 1000)) by (apply Rlt_le_trans with (1 / 1000); [lra|apply Rmax_r]). split.
  - intros HA. assert (L : ln (Rmax (1 - A) (1 / 1000)) <= 0).
    { rewrite <- ln_1. assert (M : Rmax (1 - A) (1 / 1000) <= 1) by (apply Rmax_lub; lra). destruct M as [M|M]; [left; now apply ln_increasing|rewrite M; lra]. }
    assert (0 < 1 / w) by (apply Rdiv_lt_0_compat; lra). unfold Rdiv in *. nra.
  - replace (- (- 1 / w * ln (Rmax (1 - A) (1 / 1000))) * w) with (ln (Rmax (1 - A) (1 / 1000))) by (field; lra).
    rewrite exp_ln by easy. unfold Rmax, Rmin. destruct Rle_dec, Rle_dec; lra.
Qed.
Lemma entries_physical x l : physical x -> entries_of x = Ok l -> Forall nonneg_entry l.
Proof.
  destruct x as [e|l0|l0 k known w A]; cbn.
  - intros H [= <-]. now constructor.
  - intros H [= <-]. easy.
  - destruct k.
    + intros [Hw HA]. destruct known; cbn.
      * intros [= <-]. apply Forall_cons; [|constructor]. unfold nonneg_entry; cbn. lra.
      * destruct (alf_ok w A Hw) as (a & -> & Ha & _). cbn. intros [= <-]. apply Forall_cons; [|constructor]. unfold nonneg_entry; cbn. specialize (Ha HA). lra.
    + intros [Hw HA]. destruct (alf_ok w A Hw) as (a & -> & Ha & _). cbn. intros [= <-]. apply Forall_cons; [|constructor]. unfold nonneg_entry; cbn. specialize (Ha HA). lra.
    + intros H [= <-]. easy.
Qed.
Lemma mapR_Forall2 {A B} (f : A -> res B) l r : mapR f l = Ok r <-> Forall2 (fun x y => f x = Ok y) l r.
Proof.
  revert r. induction l as [|x l IH]; intros r; cbn.
  - split; [intros [= <-]; constructor|now inversion 1].
  - split.
    + destruct (f x) as [y|] eqn:E; [|discriminate]. cbn. destruct (mapR f l) as [ys|]; [|discriminate]. cbn. intros [= <-].
      constructor; [easy|now apply IH].
    + inversion 1 as [|? y ? ys E F]; subst. rewrite E. cbn. apply IH in F. rewrite F. easy.
Qed.
Lemma solve_inv cell s R r : solve_bl cell s R = Ok r -> exists ess,
  Forall2 (fun x l => entries_of x = Ok l) cell ess /\ r_entries r = concat ess /\ concat ess <> [] /\
  r_transmitted r = transmitted (concat ess) (fraction_of s R) /\ r_absorbed r = all_absorbed (concat ess) (fraction_of s R) /\
  r_reflected r = reflected_of R /\
  attribute (concat ess) (map count_of cell) 0 (fraction_of s R) = Ok (r_layer r).
Proof.
  unfold solve_bl. destruct (mapR entries_of cell) as [ess|] eqn:E; [|discriminate]. cbn [bindR]. apply mapR_Forall2 in E.
  destruct (concat ess) as [|e es] eqn:C; [discriminate|]. destruct (attribute (e :: es) _ _ _) as [la|] eqn:A; [|discriminate].
  cbn [bindR]. intros [= <-]. exists ess. rewrite C. cbn. repeat split; easy.
Qed.

(** C39: the absorbed and the transmitted light add up to the light entering the cell,
    and both are between 0 and 1; what is missing to 1 is the reflection and the shaded
    part of the rest. *)
Theorem C39_energy : forall cell s R r, Forall physical cell -> 0 <= s <= 1 ->
  match R with Some x => 0 <= x <= 1 | None => True end ->
  solve_bl cell s R = Ok r ->
  r_absorbed r + r_transmitted r = (1 - s) * (1 - r_reflected r) /\
  0 <= r_absorbed r <= 1 /\ 0 <= r_transmitted r <= 1 /\ 0 <= r_reflected r <= 1 /\
  r_reflected r + r_absorbed r + r_transmitted r = 1 - s * (1 - r_reflected r).
Proof.
  intros cell s R r HP Hs HR H. apply solve_inv in H. destruct H as (ess & F & _ & _ & T & A & Rf & _).
  assert (N : Forall nonneg_entry (concat ess)).
  { apply Forall_concat. clear -HP F. induction F as [|x l cell ess E F IH]; [constructor|].
    apply Forall_cons; [|apply IH; now inversion HP]. apply (entries_physical x); [now inversion HP|easy]. }
  assert (O := exp_neg_01 _ (OD_nonneg _ N)). rewrite T, A, Rf. unfold transmitted, all_absorbed.
  set (e := exp (- last_ (OD (concat ess)))) in *. clearbody e.
  assert (Hf : fraction_of s R = (1 - s) * (1 - reflected_of R)) by (unfold fraction_of, reflected_of; destruct R; ring).
  assert (HRf : 0 <= reflected_of R <= 1) by (unfold reflected_of; destruct R; lra).
  rewrite Hf. set (rf := reflected_of R) in *. clearbody rf.
  assert (0 <= (1 - s) * (1 - rf) <= 1) by nra. set (f := (1 - s) * (1 - rf)) in *.
  repeat split; try (unfold f; ring); try nra; try lra.
Qed.

(** * C39: the profile *)
Definition pos_entry (e : entry) : Prop := 0 < fst e.

Lemma cum_increasing es : Forall pos_entry es -> increasing (cum_widths es).
Proof. intros H. apply psums_increasing. rewrite Forall_map. exact H. Qed.
Lemma cum_length es : length (cum_widths es) = S (length es).
Proof. unfold cum_widths. now rewrite psums_length, map_length. Qed.
Lemma OD_length es : length (OD es) = S (length es).
Proof. unfold OD. now rewrite psums_length, map_length. Qed.
Lemma cum_0 es : at_ (cum_widths es) 0 = 0.
Proof. unfold cum_widths. destruct es; easy. Qed.
Lemma OD_0 es : at_ (OD es) 0 = 0.
Proof. unfold OD. destruct es; easy. Qed.

Lemma layer_index_cell es z i : Forall pos_entry es -> (i < length es)%nat ->
  at_ (cum_widths es) i < z <= at_ (cum_widths es) (S i) -> layer_index es z = i.
Proof.
  intros H Hi Hz. unfold layer_index.
  assert (In := cum_increasing es H). destruct (searchsorted_spec (cum_widths es) z In) as (A & B & C).
  set (n := searchsorted (cum_widths es) z) in *. assert (L := cum_length es).
  assert (n = S i); [|lia].
  destruct (lt_eq_lt_dec n (S i)) as [[K|K]|K]; [|easy|].
  - exfalso. assert (z <= at_ (cum_widths es) n) by (apply C; lia).
    assert (at_ (cum_widths es) n <= at_ (cum_widths es) i) by (apply increasing_le; [easy|lia]). lra.
  - exfalso. assert (at_ (cum_widths es) (S i) < z) by (apply B; lia). lra.
Qed.
Lemma layer_index_low es z : Forall pos_entry es -> z <= 0 -> layer_index es z = 0%nat.
Proof.
  intros H Hz. unfold layer_index. destruct (cum_widths es) as [|x l] eqn:E; [easy|]. cbn.
  assert (x = 0). { assert (A := cum_0 es). rewrite E in A. exact A. }
  destruct Rlt_dec; [lra|easy].
Qed.
Lemma cell_of es z : Forall pos_entry es -> 0 < z <= last_ (cum_widths es) -> exists i, (i < length es)%nat /\ at_ (cum_widths es) i < z <= at_ (cum_widths es) (S i).
Proof.
  intros H Hz. assert (In := cum_increasing es H). destruct (searchsorted_spec (cum_widths es) z In) as (A & B & C).
  set (n := searchsorted (cum_widths es) z) in *. assert (L := cum_length es). rewrite last_nth, L in Hz. replace (S (length es) - 1)%nat with (length es) in Hz by lia.
  destruct n as [|n]. { assert (z <= at_ (cum_widths es) 0) by (apply C; lia). rewrite cum_0 in H0. lra. }
  assert (n < length es)%nat. { destruct (le_lt_dec (length es) n) as [K|K]; [|easy]. assert (at_ (cum_widths es) (length es) < z) by (apply B; lia). lra. }
  exists n. split; [easy|]. split; [apply B; lia|apply C; lia].
Qed.

(** The profile as a function of one depth. *)
Definition prof (es : list entry) (f z : R) : R :=
  if Rlt_dec z (last_ (cum_widths es)) then
    (let loc := layer_index es z in let a := snd (nth loc es (0, 0)) in
     a * exp (- at_ (OD es) loc - a * (z - at_ (cum_widths es) loc))) * f
  else 0.
Lemma index_inside es z : es <> [] -> Forall pos_entry es -> z <= last_ (cum_widths es) -> (layer_index es z < length es)%nat.
Proof.
  intros N H Hz. destruct (Rle_lt_dec z 0) as [K|K].
  - rewrite layer_index_low by easy. destruct es; [easy|cbn; lia].
  - destruct (cell_of es z H (conj K Hz)) as (i & Hi & C). now rewrite (layer_index_cell es z i).
Qed.
Lemma profile_at_ok es f z : es <> [] -> Forall pos_entry es -> z < last_ (cum_widths es) ->
  exists v, profile_at es z = Ok v /\ v * f = prof es f z.
Proof.
  intros N H Hz. unfold profile_at, prof. destruct Rlt_dec; [|lra].
  assert (I := index_inside es z N H (Rlt_le _ _ Hz)).
  destruct (nth_error es (layer_index es z)) as [[w a]|] eqn:E; [|apply nth_error_None in E; lia].
  eexists. split; [reflexivity|]. rewrite (nth_error_nth es _ (0, 0) E). easy.
Qed.
Lemma diff_one es f z : es <> [] -> Forall pos_entry es -> diff_absorption es f [z] = Ok [prof es f z].
Proof.
  intros N H. unfold diff_absorption, inside. cbn [filter]. destruct (Rlt_dec z (last_ (cum_widths es))) as [L|L].
  - cbn [length firstn mapR]. destruct (profile_at_ok es f z N H L) as (v & E & V). rewrite E. cbn. now rewrite V.
  - cbn. unfold prof. destruct Rlt_dec; [lra|]. now rewrite Rmult_0_l.
Qed.

Lemma at_map_snd es i : (i < length es)%nat -> at_ (map (fun e : entry => snd e * fst e) es) i = snd (nth i es (0, 0)) * fst (nth i es (0, 0)).
Proof. intros H. rewrite (nth_indep _ 0 (snd (0, 0) * fst (0, 0))) by now rewrite map_length. apply (map_nth (fun e : entry => snd e * fst e)). Qed.
Lemma at_map_fst es i : (i < length es)%nat -> at_ (map fst es) i = fst (nth i es ((0, 0) : entry)).
Proof. intros H. rewrite (nth_indep _ 0 (fst ((0, 0) : entry))) by now rewrite map_length. apply map_nth. Qed.

Lemma prof_cell es f i : Forall pos_entry es -> (i < length es)%nat ->
  is_RInt (prof es f) (at_ (cum_widths es) i) (at_ (cum_widths es) (S i))
    (f * (exp (- at_ (OD es) i) - exp (- at_ (OD es) (S i)))).
Proof.
  intros H Hi. set (a := snd (nth i es (0, 0))). set (x0 := at_ (cum_widths es) i). set (o := at_ (OD es) i).
  assert (X1 : at_ (cum_widths es) (S i) = x0 + fst (nth i es (0, 0))). { unfold x0, cum_widths. rewrite psums_step by now rewrite map_length. now rewrite at_map_fst. }
  assert (O1 : at_ (OD es) (S i) = o + a * fst (nth i es (0, 0))). { unfold o, OD. rewrite psums_step by now rewrite map_length. now rewrite at_map_snd. }
  assert (W : 0 < fst (nth i es (0, 0))). { rewrite Forall_forall in H. apply H, nth_In. easy. }
  assert (K : is_RInt (fun z => a * exp (- o - a * (z - x0)) * f) x0 (at_ (cum_widths es) (S i)) (f * (exp (- o) - exp (- at_ (OD es) (S i))))).
  { replace (f * (exp (- o) - exp (- at_ (OD es) (S i)))) with (minus (- exp (- o - a * (at_ (cum_widths es) (S i) - x0)) * f) (- exp (- o - a * (x0 - x0)) * f)).
    2:{ unfold minus, plus, opp; cbn. rewrite X1, O1. replace (- o - a * (x0 + fst (nth i es (0, 0)) - x0)) with (- (o + a * fst (nth i es (0, 0)))) by ring. replace (- o - a * (x0 - x0)) with (- o) by ring. ring. }
    apply (is_RInt_derive (fun z => - exp (- o - a * (z - x0)) * f)).
    - intros z _. auto_derive; [easy|]. ring_simplify. unfold Rminus. ring.
    - intros z _. apply (ex_derive_continuous (fun z => a * exp (- o - a * (z - x0)) * f)). auto_derive. easy. }
  eapply is_RInt_ext; [|exact K]. intros z Hz. rewrite X1, Rmin_left, Rmax_right in Hz by lra.
  unfold prof. destruct (Rlt_dec z (last_ (cum_widths es))) as [_|N].
  - assert (LI : layer_index es z = i) by (apply layer_index_cell; [easy|easy|fold x0; rewrite X1; lra]).
    cbv zeta. rewrite LI. fold a x0 o. reflexivity.
  - exfalso. apply N. rewrite last_nth, cum_length. replace (S (length es) - 1)%nat with (length es) by lia.
    assert (at_ (cum_widths es) (S i) <= at_ (cum_widths es) (length es)) by (apply increasing_le; [now apply cum_increasing|rewrite cum_length; lia]). rewrite X1 in H0. lra.
Qed.
Lemma point_int (g : R -> R) a : is_RInt g a a 0.
Proof. exact (is_RInt_point (V := R_NormedModule) g a). Qed.
Lemma prof_range es f i j : Forall pos_entry es -> (i <= j <= length es)%nat ->
  is_RInt (prof es f) (at_ (cum_widths es) i) (at_ (cum_widths es) j)
    (f * (exp (- at_ (OD es) i) - exp (- at_ (OD es) j))).
Proof.
  intros H [Hij Hj]. induction j as [|j IH].
  - replace i with 0%nat by lia. replace (f * (exp (- at_ (OD es) 0) - exp (- at_ (OD es) 0))) with 0 by ring. apply point_int.
  - destruct (Nat.eq_dec i (S j)) as [->|N].
    + replace (f * (exp (- at_ (OD es) (S j)) - exp (- at_ (OD es) (S j)))) with 0 by ring. apply point_int.
    + replace (f * (exp (- at_ (OD es) i) - exp (- at_ (OD es) (S j)))) with
        (plus (f * (exp (- at_ (OD es) i) - exp (- at_ (OD es) j))) (f * (exp (- at_ (OD es) j) - exp (- at_ (OD es) (S j))))) by (unfold plus; cbn; ring).
      apply (is_RInt_Chasles (V := R_NormedModule) (prof es f) _ (at_ (cum_widths es) j)); [apply IH; lia|apply prof_cell; [easy|lia]].
Qed.

(** C39: querying depths one at a time gives a function whose integral over any run of
    consecutive layers is the light lost between its front and its back (Beer-Lambert),
    and over the whole device is the absorbed light. *)
Theorem C39_profile : forall es f, es <> [] -> Forall pos_entry es ->
  exists g, (forall z, diff_absorption es f [z] = Ok [g z]) /\
    (forall i j, (i <= j <= length es)%nat ->
       is_RInt g (total (firstn i (map fst es))) (total (firstn j (map fst es)))
         (f * (exp (- total (firstn i (map (fun e => snd e * fst e) es))) - exp (- total (firstn j (map (fun e => snd e * fst e) es)))))) /\
    is_RInt g 0 (total (map fst es)) (all_absorbed es f).
Proof.
  intros es f N H. exists (prof es f). split; [intros z; now apply diff_one|].
  assert (G : forall i j, (i <= j <= length es)%nat ->
       is_RInt (prof es f) (total (firstn i (map fst es))) (total (firstn j (map fst es)))
         (f * (exp (- total (firstn i (map (fun e => snd e * fst e) es))) - exp (- total (firstn j (map (fun e => snd e * fst e) es)))))).
  { intros i j Hij. assert (K := prof_range es f i j H Hij). unfold cum_widths, OD in K.
    assert (Hi : (i <= length es)%nat) by lia. assert (Hj : (j <= length es)%nat) by lia.
    rewrite !psums_nth in K by (rewrite map_length; assumption). rewrite !Rplus_0_l in K. exact K. }
  split; [exact G|].
  assert (K := G 0%nat (length es) ltac:(lia)). rewrite !firstn_O in K. rewrite !firstn_all2 in K by (rewrite map_length; lia).
  unfold total in K at 1 3. cbn [fold_right] in K. rewrite Ropp_0, exp_0 in K.
  unfold all_absorbed. unfold OD. rewrite psums_last, Rplus_0_l, Rmult_comm. exact K.
Qed.
Example C39_case : (exists g, is_RInt g 0 3 (all_absorbed [(1, 2); (2, 1)] (9/10)) /\ diff_absorption [(1, 2); (2, 1)] (9/10) [2] = Ok [g 2]) /\
  exists r, solve_bl [ELayer (1, 2); EJunction [] KDB false 2 (1/2)] (1/10) (Some (1/5)) = Ok r /\ r_absorbed r + r_transmitted r = 18 / 25.
Proof.
  split.
  - destruct (C39_profile [(1, 2); (2, 1)] (9/10)) as (g & A & _ & B); [easy|apply Forall_cons; [unfold pos_entry; cbn; lra|apply Forall_cons; [unfold pos_entry; cbn; lra|constructor]]|].
    exists g. split; [|apply A]. replace 3 with (total (map fst [(1, 2); (2, 1)])); [exact B|unfold total; cbn; lra].
  - destruct (solve_bl [ELayer (1, 2); EJunction [] KDB false 2 (1/2)] (1/10) (Some (1/5))) as [r|] eqn:E.
    + exists r. split; [easy|]. assert (HR : r_reflected r = 1 / 5). { apply solve_inv in E. destruct E as (ess & _ & _ & _ & _ & _ & R & _). exact R. }
      assert (HP : Forall physical [ELayer (1, 2); EJunction [] KDB false 2 (1/2)]) by (apply Forall_cons; [split; cbn; lra|apply Forall_cons; [split; lra|constructor]]).
      assert (H1 : 0 <= 1 / 10 <= 1) by lra. assert (H2 : match Some (1 / 5) with Some x => 0 <= x <= 1 | None => True end) by lra.
      destruct (C39_energy _ _ (Some (1/5)) _ HP H1 H2 E) as [S _].
      rewrite S, HR. lra.
    + exfalso. unfold solve_bl in E. cbn in E. unfold alf in E. destruct (Req_EM_T 2 0); [lra|]. cbn in E. discriminate.
Qed.

(** * C40 *)
Lemma sum_nat_app (a b : list nat) : list_sum (a ++ b) = (list_sum a + list_sum b)%nat.
Proof. apply list_sum_app. Qed.

Lemma absorb_ok es f : forall k off A, (off + k <= length es)%nat ->
  absorb_layers es k off (f * exp (- at_ (OD es) off)) A =
  Ok (A + f * (exp (- at_ (OD es) off) - exp (- at_ (OD es) (off + k))), f * exp (- at_ (OD es) (off + k))).
Proof.
  induction k as [|k IH]; intros off A H; cbn [absorb_layers].
  - rewrite Nat.add_0_r. f_equal. f_equal. ring.
  - destruct (nth_error es off) as [[w a]|] eqn:E; [|apply nth_error_None in E; lia].
    assert (O1 : at_ (OD es) (S off) = at_ (OD es) off + a * w).
    { unfold OD. rewrite psums_step by (rewrite map_length; lia). rewrite at_map_snd by lia. rewrite (nth_error_nth es _ (0, 0) E). easy. }
    assert (X : exp (- at_ (OD es) (S off)) = exp (- at_ (OD es) off) * exp (- a * w)) by (rewrite O1, <- exp_plus; f_equal; ring).
    replace (f * exp (- at_ (OD es) off) - f * exp (- at_ (OD es) off) * (1 - exp (- a * w))) with (f * exp (- at_ (OD es) (S off))) by (rewrite X; ring).
    rewrite IH by lia. replace (S off + k)%nat with (off + S k)%nat by lia. f_equal. f_equal. rewrite X. ring.
Qed.
Lemma attribute_ok es f : forall counts off, (off + list_sum counts <= length es)%nat ->
  exists la, attribute es counts off (f * exp (- at_ (OD es) off)) = Ok la /\ length la = length counts /\
  (forall j, (j < length counts)%nat -> at_ la j =
      f * (exp (- at_ (OD es) (off + list_sum (firstn j counts))) - exp (- at_ (OD es) (off + list_sum (firstn (S j) counts))))) /\
  total la = f * (exp (- at_ (OD es) off) - exp (- at_ (OD es) (off + list_sum counts))).
Proof.
  induction counts as [|n r IH]; intros off H; cbn [attribute].
  - exists []. cbn. rewrite Nat.add_0_r. repeat split; [lia|ring].
  - cbn [list_sum fold_right] in H. change (fold_right Nat.add 0%nat r) with (list_sum r) in H.
    rewrite absorb_ok by lia. cbn [bindR fst snd].
    destruct (IH (off + n)%nat ltac:(lia)) as (la & E & L & N & T). rewrite E. cbn [bindR].
    eexists. split; [reflexivity|]. split; [cbn; now rewrite L|]. split.
    + intros [|j] Hj; cbn [nth].
      * cbn. rewrite Nat.add_0_r. replace (n + 0)%nat with n by lia. ring.
      * rewrite N by (cbn in Hj; lia). rewrite !firstn_cons.
        change (list_sum (n :: firstn j r)) with (n + list_sum (firstn j r))%nat. change (list_sum (n :: firstn (S j) r)) with (n + list_sum (firstn (S j) r))%nat.
        rewrite !Nat.add_assoc. reflexivity.
    + unfold total in *. cbn [fold_right list_sum]. rewrite T. change (fold_right Nat.add 0%nat r) with (list_sum r). rewrite Nat.add_assoc. ring.
Qed.

(** An element whose own number of layers is the number of optical slabs it stands for:
    everything except a 2D or DB junction with a number of layers different from one. *)
Definition regular (x : element) : Prop :=
  match x with
  | EJunction l K2D _ _ _ => length l = 1%nat
  | EJunction l KDB _ _ _ => length l = 1%nat
  | _ => True
  end.
Lemma regular_count x l : regular x -> entries_of x = Ok l -> count_of x = length l.
Proof.
  destruct x as [e|l0|l0 k known w A]; cbn.
  - now intros _ [= <-].
  - now intros _ [= <-].
  - destruct k; cbn.
    + intros R. destruct known; [now intros [= <-]|]. unfold alf. destruct Req_EM_T; [discriminate|]. cbn. now intros [= <-].
    + intros R. unfold alf. destruct Req_EM_T; [discriminate|]. cbn. now intros [= <-].
    + now intros _ [= <-].
Qed.
Lemma counts_ok cell ess : Forall regular cell -> Forall2 (fun x l => entries_of x = Ok l) cell ess ->
  forall j, list_sum (firstn j (map count_of cell)) = length (concat (firstn j ess)).
Proof.
  intros HR F. induction F as [|x l cell ess E F IH]; intros [|j]; cbn; try easy.
  rewrite app_length. change (fold_right Nat.add 0%nat (firstn j (map count_of cell))) with (list_sum (firstn j (map count_of cell))). rewrite IH by (now inversion HR). rewrite (regular_count x l); [easy|now inversion HR|easy].
Qed.

Lemma concat_firstn_prefix {A} (ess : list (list A)) j : firstn (length (concat (firstn j ess))) (concat ess) = concat (firstn j ess).
Proof.
  revert j. induction ess as [|l ess IH]; intros [|j]; cbn; try easy.
  rewrite app_length, firstn_app_2. now rewrite IH.
Qed.

(** C40, for cells without irregular junctions: the layer_absorption of every element is
    the integral of the absorption profile between the front and the back of that
    element, and together they make the absorbed light. *)
Theorem C40_attribution_partial : forall cell s R r, Forall regular cell -> solve_bl cell s R = Ok r ->
  Forall pos_entry (r_entries r) ->
  exists ess g, Forall2 (fun x l => entries_of x = Ok l) cell ess /\
    (forall z, diff_absorption (r_entries r) (fraction_of s R) [z] = Ok [g z]) /\
    length (r_layer r) = length cell /\
    (forall j, (j < length cell)%nat ->
       is_RInt g (total (map fst (concat (firstn j ess)))) (total (map fst (concat (firstn (S j) ess)))) (at_ (r_layer r) j)) /\
    total (r_layer r) = r_absorbed r.
Proof.
  intros cell s R r HR H HP. apply solve_inv in H. destruct H as (ess & F & En & N & _ & A & _ & At).
  rewrite En in HP. set (es := concat ess) in *. set (f := fraction_of s R) in *.
  exists ess, (prof es f). split; [easy|]. rewrite En. split; [intros z; now apply diff_one|].
  assert (L : length cell = length ess) by (clear -F; induction F; cbn; [easy|now rewrite IHF]).
  assert (C := counts_ok cell ess HR F).
  assert (S0 : list_sum (map count_of cell) = length es).
  { specialize (C (length cell)). rewrite firstn_all2 in C by now rewrite map_length. rewrite C. rewrite firstn_all2 by lia. easy. }
  destruct (attribute_ok es f (map count_of cell) 0) as (la & E & Ll & Nl & T); [rewrite S0; lia|].
  assert (O0 : f * exp (- at_ (OD es) 0) = f) by (rewrite OD_0, Ropp_0, exp_0; ring). rewrite O0, At in E. injection E as <-.
  split; [now rewrite Ll, map_length|]. split.
  - intros j Hj. rewrite Nl by now rewrite map_length. rewrite !Nat.add_0_l, !C.
    assert (Hlen : forall i, (length (concat (firstn i ess)) <= length es)%nat).
    { intros i. unfold es. rewrite <- (concat_firstn_prefix ess i) at 1. rewrite firstn_length. lia. }
    assert (Hmono : (length (concat (firstn j ess)) <= length (concat (firstn (S j) ess)))%nat).
    { rewrite <- !C. clear. revert j. induction (map count_of cell) as [|n l IH]; intros [|j]; cbn; try lia. specialize (IH j). unfold list_sum in IH. destruct l; cbn in *; lia. }
    assert (K := prof_range es f (length (concat (firstn j ess))) (length (concat (firstn (S j) ess))) HP (conj Hmono (Hlen (S j)))).
    assert (P : forall i, at_ (cum_widths es) (length (concat (firstn i ess))) = total (map fst (concat (firstn i ess)))).
    { intros i. unfold cum_widths. rewrite psums_nth by (rewrite map_length; apply Hlen). rewrite Rplus_0_l, firstn_map. f_equal. f_equal. apply concat_firstn_prefix. }
    rewrite !P in K. exact K.
  - rewrite T, A. unfold all_absorbed. rewrite last_nth, OD_length, OD_0, S0, Ropp_0, exp_0. rewrite Nat.add_0_l. replace (S (length es) - 1)%nat with (length es) by lia. ring.
Qed.
(** C40, the same through the [absorbed] method of the elements: with the offset and width
    that prepare_solar_cell gives it (the depth of its front and its thickness), every
    element sees a profile that vanishes behind it and integrates over its thickness to
    its layer_absorption. *)
Theorem C40_element_profile_partial : forall cell s R r, Forall regular cell -> solve_bl cell s R = Ok r ->
  Forall pos_entry (r_entries r) ->
  exists ess, Forall2 (fun x l => entries_of x = Ok l) cell ess /\
    forall j, (j < length cell)%nat ->
      let offset := total (map fst (concat (firstn j ess))) in
      let width := total (map fst (concat (firstn (S j) ess))) - offset in
      0 <= width ->
      exists g, (forall z, absorbed (r_entries r) (fraction_of s R) offset width [z] = Ok [g z]) /\
        (forall z, width <= z -> g z = 0) /\ is_RInt g 0 width (at_ (r_layer r) j).
Proof.
  intros cell s R r HR H HP. destruct (C40_attribution_partial cell s R r HR H HP) as (ess & g & F & Hg & L & Hi & _).
  exists ess. split; [exact F|]. intros j Hj offset width Hw.
  exists (fun z => g (offset + z) * (if Rlt_dec z width then 1 else 0)). split; [|split].
  - intros z. unfold absorbed. cbn [map]. rewrite Hg. reflexivity.
  - intros z Hz. destruct (Rlt_dec z width); [lra|ring].
  - specialize (Hi j Hj). fold offset in Hi.
    assert (K : is_RInt (fun z => 1 * g (1 * z + offset)) 0 width (at_ (r_layer r) j)).
    { apply (is_RInt_comp_lin g 1 offset 0 width). replace (1 * 0 + offset) with offset by ring.
      replace (1 * width + offset) with (total (map fst (concat (firstn (S j) ess)))) by (unfold width; ring). exact Hi. }
    eapply is_RInt_ext; [|exact K]. intros z Hz. rewrite Rmin_left, Rmax_right in Hz by assumption.
    destruct (Rlt_dec z width); [|lra]. rewrite Rmult_1_l, Rmult_1_r. rewrite (Rplus_comm offset z), Rmult_1_l. reflexivity.
Qed.

Example C40_case : exists r, solve_bl [ELayer (1, 2); EJunction [(1, 1); (3, 1/2)] KOther false 4 0; ETunnel []; ELayer (1, 1)] 0 None = Ok r /\
  length (r_layer r) = 4%nat /\ total (r_layer r) = r_absorbed r.
Proof.
  destruct (solve_bl [ELayer (1, 2); EJunction [(1, 1); (3, 1/2)] KOther false 4 0; ETunnel []; ELayer (1, 1)] 0 None) as [r|] eqn:E; [|discriminate].
  exists r. split; [easy|]. edestruct C40_attribution_partial as (ess & g & _ & _ & L & _ & T); [|exact E| |].
  - repeat (apply Forall_cons; [exact I|]). constructor.
  - apply solve_inv in E. destruct E as (ess & F & -> & _). inversion F as [|? l1 ? ? E1 F1]; subst. inversion F1 as [|? l2 ? ? E2 F2]; subst. inversion F2 as [|? l3 ? ? E3 F3]; subst. inversion F3 as [|? l4 ? ? E4 F4]; subst. inversion F4; subst.
    cbn in E1, E2, E3, E4. injection E1 as <-. injection E2 as <-. injection E3 as <-. injection E4 as <-. cbn.
    repeat (apply Forall_cons; [unfold pos_entry; cbn; lra|]). constructor.
  - split; [exact L|exact T].
Qed.

(** C40 fails for junctions without layers: a detailed-balance junction that takes half
    of the light is credited nothing, and the layer below it is credited what the
    junction absorbs. *)
Theorem C40_layerless_refuted : exists w A w2 a2 r g,
  solve_bl [EJunction [] KDB false w A; ELayer (w2, a2)] 0 None = Ok r /\
  0 < w /\ 0 < A /\ 0 < w2 /\ a2 = 0 /\
  (forall z, diff_absorption (r_entries r) 1 [z] = Ok [g z]) /\
  is_RInt g 0 w A /\ at_ (r_layer r) 0 = 0 /\
  is_RInt g w (w + w2) 0 /\ at_ (r_layer r) 1 = A.
Proof.
  destruct (alf_ok 1 (1/2) ltac:(lra)) as (a & Ea & _ & Ex).
  set (es := [(1, a); (1, 0)] : list entry).
  assert (HP : Forall pos_entry es) by (repeat (apply Forall_cons; [unfold pos_entry; cbn; lra|]); constructor).
  assert (Hf : fraction_of 0 None = 1) by (unfold fraction_of; ring).
  exists 1, (1/2), 1, 0. eexists. exists (prof es 1). split.
  { unfold solve_bl. cbn [mapR entries_of]. rewrite Ea. cbn. reflexivity. }
  cbn [r_entries r_layer]. split; [lra|]. split; [lra|]. split; [lra|]. split; [easy|].
  split; [intros z; now apply diff_one|].
  assert (E1 : exp (- (a * 1)) = 1 / 2). { rewrite Rmin_left in Ex by lra. replace (- a * 1) with (- (a * 1)) in Ex by ring. lra. }
  assert (K1 := prof_range es 1 0 1 HP ltac:(cbn; lia)). assert (K2 := prof_range es 1 1 2 HP ltac:(cbn; lia)).
  cbn in K1, K2. rewrite Ropp_0, exp_0, !Rplus_0_l in *. rewrite Rmult_0_l, Rplus_0_r, E1 in *.
  split; [replace (1 / 2) with (1 * (1 - 1 / 2)) by field; exact K1|]. split; [cbn; easy|].
  split; [replace 0 with (1 * (1 / 2 - 1 / 2)) by field; exact K2|].
  cbn. rewrite Hf. replace (- a * 1) with (- (a * 1)) by ring. rewrite E1. lra.
Qed.

(** The optical stand-in of such a junction absorbs its absorptance, capped at 99.9 %. *)
Theorem C40_layerless_slab_partial : forall l k known w A es, 0 < w -> k = KDB \/ (k = K2D /\ known = false) ->
  entries_of (EJunction l k known w A) = Ok es ->
  length es = 1%nat /\ total (map fst es) = w /\ all_absorbed es 1 = Rmin A (999 / 1000).
Proof.
  intros l k known w A es Hw Hk. destruct (alf_ok w A Hw) as (a & Ea & _ & Ex).
  assert (E : entries_of (EJunction l k known w A) = Ok [(w, a)]). { destruct Hk as [->|[-> ->]]; cbn; rewrite Ea; easy. }
  rewrite E. intros [= <-]. split; [easy|]. split; [unfold total; cbn; ring|]. unfold all_absorbed. cbn.
  rewrite Rplus_0_l. replace (- (a * w)) with (- a * w) by ring. lra.
Qed.
Example C40_slab_case : exists es, entries_of (EJunction [] KDB false 2 1) = Ok es /\ all_absorbed es 1 = 999 / 1000.
Proof.
  destruct (alf_ok 2 1 ltac:(lra)) as (a & Ea & _). assert (E : entries_of (EJunction [] KDB false 2 1) = Ok [(2, a)]) by (cbn; now rewrite Ea).
  exists [(2, a)]. split; [easy|].
  destruct (C40_layerless_slab_partial [] KDB false 2 1 _ ltac:(lra) (or_introl eq_refl) E) as (_ & _ & ->). unfold Rmin. destruct Rle_dec; lra.
Qed.

(** * C41 *)
Lemma mapR_ok {A B} (f : A -> res B) l g : (forall x, In x l -> f x = Ok (g x)) -> mapR f l = Ok (map g l).
Proof. induction l as [|x l IH]; intros H; cbn; [easy|]. rewrite (H x) by now left. cbn. rewrite IH; [easy|]. intros; apply H; now right. Qed.

Lemma inside_sorted es zs : nondecreasing zs ->
  (forall z, In z (firstn (inside es zs) zs) -> z < last_ (cum_widths es)) /\
  (forall z, In z (skipn (inside es zs) zs) -> ~ z < last_ (cum_widths es)) /\ (inside es zs <= length zs)%nat.
Proof.
  unfold inside. induction zs as [|z zs IH]; intros H; cbn [filter].
  - cbn. easy.
  - destruct (Rlt_dec z (last_ (cum_widths es))) as [L|L].
    + cbn [length firstn skipn]. destruct (IH (nondecreasing_tail _ _ H)) as (A & B & C). repeat split.
      * intros x [<-|X]; [easy|now apply A].
      * intros x X. now apply B.
      * cbn. lia.
    + assert (E : forall x, In x (z :: zs) -> ~ x < last_ (cum_widths es)).
      { intros x X. assert (z <= x); [|lra]. apply (In_nth _ _ 0) in X. destruct X as (k & Hk & <-).
        change z with (at_ (z :: zs) 0). apply H. lia. }
      assert (F : filter (fun z0 => if Rlt_dec z0 (last_ (cum_widths es)) then true else false) zs = []).
      { clear -E. induction zs as [|y zs IH]; [easy|]. cbn. destruct Rlt_dec as [L|L]; [exfalso; apply (E y); [right; now left|easy]|]. apply IH. intros x [<-|X]; apply E; [now left|right; now right]. }
      rewrite F. cbn. repeat split; [easy| |lia]. intros x X. now apply E.
Qed.

(** C41, for depths in non-decreasing order: the answer for a depth does not depend on the
    other depths of the call. *)
Theorem C41_profile_pointwise_partial : forall es f zs, es <> [] -> Forall pos_entry es -> nondecreasing zs ->
  exists out, diff_absorption es f zs = Ok out /\ length out = length zs /\
    forall k, (k < length zs)%nat -> diff_absorption es f [at_ zs k] = Ok [at_ out k].
Proof.
  intros es f zs N H S. destruct (inside_sorted es zs S) as (A & B & C).
  set (n := inside es zs) in *. exists (map (prof es f) zs).
  split; [|split; [apply map_length|]].
  - unfold diff_absorption. fold n.
    assert (M : forall z, In z (firstn n zs) -> profile_at es z = Ok (match profile_at es z with Ok v => v | Err _ => 0 end)).
    { intros z Hz. destruct (profile_at_ok es f z N H (A z Hz)) as (v & -> & _). easy. }
    rewrite (mapR_ok _ _ _ M). cbn [bindR]. f_equal.
    rewrite <- (firstn_skipn n zs) at 3. rewrite !map_app, map_map. f_equal.
    + apply map_ext_in. intros z Hz. destruct (profile_at_ok es f z N H (A z Hz)) as (v & -> & V). exact V.
    + replace (length zs - n)%nat with (length (skipn n zs)) by apply skipn_length.
      clear -B. induction (skipn n zs) as [|z r IH]; [easy|]. cbn. rewrite IH by (intros; apply B; now right).
      f_equal. unfold prof. destruct Rlt_dec as [L|L]; [exfalso; apply (B z); [now left|easy]|]. ring.
  - intros k Hk. rewrite diff_one by easy. f_equal. f_equal.
    rewrite (nth_indep (map (prof es f) zs) 0 (prof es f 0)) by now rewrite map_length. now rewrite map_nth.
Qed.
Example C41_case : exists out, diff_absorption [(1, 2); (2, 1)] 1 [0; 1/2; 1; 2; 5] = Ok out /\ at_ out 4 = 0 /\
  diff_absorption [(1, 2); (2, 1)] 1 [1/2] = Ok [at_ out 1].
Proof.
  destruct (C41_profile_pointwise_partial [(1, 2); (2, 1)] 1 [0; 1/2; 1; 2; 5]) as (out & E & _ & P); [easy| | |].
  - repeat (apply Forall_cons; [unfold pos_entry; cbn; lra|]); constructor.
  - apply increasing_nondecreasing. intros [|[|[|[|[|i]]]]] [|[|[|[|[|j]]]]] Hi; cbn in *; try lra; lia.
  - exists out. split; [easy|]. split; [|apply (P 1%nat); cbn; lia].
    assert (Q := P 4%nat ltac:(cbn; lia)). cbn [nth] in Q. rewrite diff_one in Q; [|easy|repeat (apply Forall_cons; [unfold pos_entry; cbn; lra|]); constructor].
    injection Q as Q. rewrite <- Q. unfold prof. destruct Rlt_dec as [L|_]; [|easy]. exfalso. cbn in L. lra.
Qed.

(** In another order the answers change, or the call raises. *)
Theorem C41_order_refuted :
  (exists es f z1 z2 v, diff_absorption es f [z2] = Ok [v] /\ v <> 0 /\ exists u, diff_absorption es f [z1; z2] = Ok [u; 0]) /\
  (exists es f z1 z2 v, diff_absorption es f [z2] = Ok [v] /\ diff_absorption es f [z1; z2] = Err IndexError).
Proof.
  assert (HP : Forall pos_entry [(1, 1)]) by (apply Forall_cons; [unfold pos_entry; cbn; lra|constructor]).
  split.
  - exists [(1, 1)], 1, 1, (1/2). eexists. split; [apply diff_one; easy|].
    unfold prof. assert (Lw : last_ (cum_widths [(1, 1)]) = 1) by (cbn; lra). rewrite Lw.
    destruct (Rlt_dec (1/2) 1); [|lra]. split.
    + cbv zeta. rewrite (layer_index_cell [(1, 1)] (1/2) 0 HP); [|cbn; lia|cbn; lra]. cbn [nth snd].
      assert (X := exp_pos (- at_ (OD [(1, 1)]) 0 - 1 * (1 / 2 - at_ (cum_widths [(1, 1)]) 0))). lra.
    + unfold diff_absorption, inside. cbn [filter]. rewrite Lw. destruct (Rlt_dec 1 1); [lra|]. destruct (Rlt_dec (1/2) 1); [|lra].
      cbn [length firstn mapR]. unfold profile_at. rewrite (layer_index_cell [(1, 1)] 1 0 HP); [|cbn; lia|cbn; lra]. cbn. rewrite Rmult_0_l. eexists. reflexivity.
  - exists [(1, 1)], 1, 2, (1/2). eexists. split; [apply diff_one; easy|].
    unfold diff_absorption, inside. cbn [filter]. assert (Lw : last_ (cum_widths [(1, 1)]) = 1) by (cbn; lra). rewrite Lw.
    destruct (Rlt_dec 2 1); [lra|]. destruct (Rlt_dec (1/2) 1); [|lra]. cbn [length firstn mapR].
    unfold profile_at, layer_index. cbn [cum_widths map psums fst searchsorted]. destruct (Rlt_dec 0 2); [|lra]. destruct (Rlt_dec (0 + 1) 2); [|lra]. cbn. easy.
Qed.

(** * C81 *)
(** The absorption coefficient a junction without layers should carry. *)
Definition own_alpha (x : element) : res R :=
  match x with EJunction _ _ _ w A => alf w A | _ => Err AttributeError end.

Lemma last_width_app cell w x v : optical_width x = Some v -> last_width (cell ++ [x]) w = v.
Proof. intros H. revert w. induction cell as [|y cell IH]; intros w; cbn; [now rewrite H|apply IH]. Qed.

(** C81: the alpha function left on a junction without layers is the junction's own when
    the junction is the last element of the cell. *)
Theorem C81_stored_alpha_partial : forall cell l w A,
  let x := EJunction l KDB false w A in
  stored_alpha (cell ++ [x]) (length cell) = own_alpha x.
Proof.
  intros cell l w A x. unfold stored_alpha. rewrite nth_error_app2 by lia. rewrite Nat.sub_diag. cbn [nth_error x].
  rewrite last_last. cbn [absorptance_of bindR]. unfold x. rewrite (last_width_app cell w (EJunction l KDB false w A) w) by easy. easy.
Qed.
Example C81_case : stored_alpha [ELayer (1, 1); EJunction [] KDB false 1 (1/2)] 1 = own_alpha (EJunction [] KDB false 1 (1/2)).
Proof. apply (C81_stored_alpha_partial [ELayer (1, 1)] [] 1 (1/2)). Qed.

(** Otherwise it is that of the last element, or cannot be called at all. *)
Theorem C81_late_binding_refuted :
  (exists cell j x a b, nth_error cell j = Some x /\ own_alpha x = Ok a /\ stored_alpha cell j = Ok b /\ a <> b) /\
  (exists cell j x a, nth_error cell j = Some x /\ own_alpha x = Ok a /\ stored_alpha cell j = Err AttributeError).
Proof.
  split.
  - destruct (alf_ok 1 (1/2) ltac:(lra)) as (a & Ea & _ & Xa). destruct (alf_ok 1 (1/4) ltac:(lra)) as (b & Eb & _ & Xb).
    exists [EJunction [] KDB false 1 (1/2); EJunction [] KDB false 1 (1/4)], 0%nat, (EJunction [] KDB false 1 (1/2)), a, b.
    split; [easy|]. split; [exact Ea|]. split; [exact Eb|]. intros ->. rewrite Xa in Xb. unfold Rmin in Xb. destruct (Rle_dec (1/2) _), (Rle_dec (1/4) _); lra.
  - destruct (alf_ok 1 (1/2) ltac:(lra)) as (a & Ea & _).
    exists [EJunction [] KDB false 1 (1/2); ELayer (1, 1)], 0%nat, (EJunction [] KDB false 1 (1/2)), a. split; [easy|]. split; [exact Ea|]. easy.
Qed.

(** C151-C153: the refractiveindex.info database. *)
From Coq Require Import Reals String List Arith Bool Lra Lia Psatz Sorted Permutation.
From Verif Require Import Common InterpModel InterpProps NpModel DetBalModel DetBalProps TmmModel RiiModel.
From Coq Require Import List.
Import ListNotations.
Open Scope R_scope.
Open Scope list_scope.

(** * C151: the dispersion formulas *)
(** The published formulas (refractiveindex.info), written with the coefficients after the first
    grouped in pairs. *)
Definition flat (ps : list (R * R)) : list R := flat_map (fun p => [fst p; snd p]) ps.
Definition sum_over (g : R -> R -> R) (ps : list (R * R)) : R := fold_right Rplus 0 (map (fun p => g (fst p) (snd p)) ps).
Lemma over_pairs_sum g : forall ps acc, over_pairs g acc (flat ps) = Ok (acc + sum_over g ps).
Proof.
  induction ps as [|[a b] ps IH]; intros acc; [cbn; f_equal; unfold sum_over; cbn; lra|].
  change (flat ((a, b) :: ps)) with (a :: b :: flat ps). cbn [over_pairs]. rewrite IH. f_equal.
  unfold sum_over. cbn [map fold_right fst snd]. lra.
Qed.
Lemma fpow_pos w e : 0 < w -> fpow w e = Rpower w e.
Proof. intros H. unfold fpow. destruct (Req_EM_T w 0); [lra|reflexivity]. Qed.
Lemma sum_over_ext g h ps : (forall a b, g a b = h a b) -> sum_over g ps = sum_over h ps.
Proof. intros H. unfold sum_over. f_equal. apply map_ext. intros. apply H. Qed.
(** The wavelength is in nm, the range in micrometres. *)
Definition covered (lo hi lam : R) : Prop := lo <= lam / 1000 <= hi.
Lemma formula_covered num c lo hi lam : covered lo hi lam -> formula_index num c lo hi lam = formula_value num c (lam / 1000).
Proof. intros [H1 H2]. unfold formula_index. destruct (Rle_dec lo (lam / 1000)); [|lra]. now destruct (Rle_dec (lam / 1000) hi). Qed.
(** [q] is the square of the index that comes out, whenever it is not negative. *)
Definition squared (r : res (option R)) (q : R) : Prop := 0 <= q -> exists n, r = Ok (Some n) /\ 0 <= n /\ n * n = q.
Lemma squared_sqrt q : squared (Ok (np_sqrt q)) q.
Proof.
  intros H. exists (sqrt q). split; [|split; [apply sqrt_pos|now apply sqrt_sqrt]].
  unfold np_sqrt. destruct (Rlt_dec q 0); [lra|reflexivity].
Qed.
Theorem C151_sellmeier : forall c0 ps lo hi lam, covered lo hi lam ->
  let w := lam / 1000 in
  squared (formula_index 1 (c0 :: flat ps) lo hi lam) (1 + c0 + sum_over (fun b l => b * w ^ 2 / (w ^ 2 - l ^ 2)) ps) /\
  squared (formula_index 2 (c0 :: flat ps) lo hi lam) (1 + c0 + sum_over (fun b c => b * w ^ 2 / (w ^ 2 - c)) ps).
Proof.
  intros c0 ps lo hi lam Hc w. rewrite !formula_covered by exact Hc. fold w. unfold formula_value, coef. cbn [nth_error bindR tl].
  rewrite !over_pairs_sum. cbn [bindR]. split; apply squared_sqrt.
Qed.
Theorem C151_powers : forall c0 ps lo hi lam, covered lo hi lam -> 0 < lam ->
  let w := lam / 1000 in
  let s := c0 + sum_over (fun c e => c * Rpower w e) ps in
  squared (formula_index 3 (c0 :: flat ps) lo hi lam) s /\ formula_index 5 (c0 :: flat ps) lo hi lam = Ok (Some s).
Proof.
  intros c0 ps lo hi lam Hc Hl w s. rewrite !formula_covered by exact Hc. fold w. unfold formula_value, coef. cbn [nth_error bindR tl].
  rewrite !over_pairs_sum. cbn [bindR]. assert (Hw : 0 < w) by (unfold w; lra).
  assert (E : c0 + sum_over (fun c1 c2 => c1 * fpow w c2) ps = s).
  { unfold s. f_equal. apply sum_over_ext. intros a b. now rewrite fpow_pos. }
  rewrite E. split; [apply squared_sqrt|reflexivity].
Qed.
Theorem C151_gases : forall c0 ps lo hi lam, covered lo hi lam ->
  let w := lam / 1000 in
  formula_index 6 (c0 :: flat ps) lo hi lam = Ok (Some (1 + c0 + sum_over (fun b c => b / (c - / w ^ 2)) ps)).
Proof.
  intros c0 ps lo hi lam Hc w. rewrite !formula_covered by exact Hc. fold w. unfold formula_value, coef. cbn [nth_error bindR tl].
  rewrite !over_pairs_sum. reflexivity.
Qed.
(** The even powers w^2, w^4, ... with the given coefficients. *)
Fixpoint even_powers (w : R) (first : nat) (cs : list R) : R :=
  match cs with [] => 0 | c :: r => c * (w ^ 2) ^ first + even_powers w (S first) r end.
Theorem C151_herzberger : forall c0 c1 c2 cs lo hi lam, covered lo hi lam ->
  let w := lam / 1000 in
  formula_index 7 (c0 :: c1 :: c2 :: cs) lo hi lam =
    Ok (Some (c0 + c1 / (w ^ 2 - 28 / 1000) + c2 / (w ^ 2 - 28 / 1000) ^ 2 + even_powers w 1 cs)).
Proof.
  intros c0 c1 c2 cs lo hi lam Hc w. rewrite !formula_covered by exact Hc. fold w. unfold formula_value, coef. cbn [nth_error bindR skipn].
  f_equal. f_equal.
  assert (G : forall cs k acc, fold_left (fun acc ic => acc + snd ic * w ^ (2 * (fst ic + 1))) (combine (seq k (length cs)) cs) acc
                = acc + even_powers w (S k) cs).
  { clear. induction cs as [|c cs IH]; intros k acc; [cbn; lra|]. cbn [length seq combine fold_left fst snd even_powers].
    rewrite IH, <- pow_mult. replace (k + 1)%nat with (S k) by lia. lra. }
  rewrite G. f_equal. f_equal. unfold Rdiv. rewrite Rmult_1_l, pow_inv. reflexivity.
Qed.
(** Formula 8 is given for (n^2 - 1) / (n^2 + 2). *)
Theorem C151_retro : forall c0 c1 c2 c3 lo hi lam, covered lo hi lam ->
  let w := lam / 1000 in
  let x := c0 + c1 * w ^ 2 / (w ^ 2 - c2) + c3 * w ^ 2 in
  - (1 / 2) <= x < 1 ->
  exists n, formula_index 8 [c0; c1; c2; c3] lo hi lam = Ok (Some n) /\ 0 <= n /\ (n ^ 2 - 1) / (n ^ 2 + 2) = x.
Proof.
  intros c0 c1 c2 c3 lo hi lam Hc w x Hx. rewrite !formula_covered by exact Hc. fold w. unfold formula_value, coef. cbn [nth_error bindR].
  fold x. assert (Hq : 0 <= - (2 * x + 1) / (x - 1)).
  { replace (- (2 * x + 1) / (x - 1)) with ((2 * x + 1) / (1 - x)) by (field; lra).
    apply Rmult_le_pos; [lra|]. left. apply Rinv_0_lt_compat. lra. }
  destruct (squared_sqrt _ Hq) as (n & E & Hn & N2). exists n. split; [exact E|]. split; [exact Hn|].
  replace (n ^ 2) with (n * n) by ring. rewrite N2. field. lra.
Qed.
Theorem C151_exotic : forall c0 c1 c2 c3 c4 c5 lo hi lam, covered lo hi lam ->
  let w := lam / 1000 in
  squared (formula_index 9 [c0; c1; c2; c3; c4; c5] lo hi lam)
    (c0 + c1 / (w ^ 2 - c2) + c3 * (w - c4) / ((w - c4) ^ 2 + c5)).
Proof.
  intros c0 c1 c2 c3 c4 c5 lo hi lam Hc w. rewrite !formula_covered by exact Hc. fold w. unfold formula_value, coef. cbn [nth_error bindR].
  apply squared_sqrt.
Qed.
(** Formula 4 has two resonances and up to four powers. *)
Definition resonance (w ci cj ck cl : R) : R := ci * Rpower w cj / (w ^ 2 - Rpower ck cl).
Definition formula4 (w c1 c2 c3 c4 c5 c6 c7 c8 c9 : R) (ps : list (R * R)) : R :=
  c1 + resonance w c2 c3 c4 c5 + resonance w c6 c7 c8 c9 + sum_over (fun c e => c * Rpower w e) ps.
(** It is right with no power and with one. *)
Theorem C151_resonances_partial : forall c1 c2 c3 c4 c5 c6 c7 c8 c9 ps lo hi lam, covered lo hi lam -> 0 < lam ->
  0 < c4 -> 0 < c8 -> (length ps <= 1)%nat ->
  squared (formula_index 4 ([c1; c2; c3; c4; c5; c6; c7; c8; c9] ++ flat ps) lo hi lam)
    (formula4 (lam / 1000) c1 c2 c3 c4 c5 c6 c7 c8 c9 ps).
Proof.
  intros c1 c2 c3 c4 c5 c6 c7 c8 c9 ps lo hi lam Hc Hl H4 H8 Hp. rewrite !formula_covered by exact Hc. set (w := lam / 1000).
  assert (Hw : 0 < w) by (unfold w; lra). unfold formula_value, coef. cbn [app nth_error bindR skipn firstn].
  unfold four. cbn [bindR]. rewrite !fpow_pos by assumption.
  destruct ps as [|[a b] [|p ps]]; [| |cbn in Hp; lia]; cbn [flat flat_map app fst snd length Nat.div Nat.divmod fold_left seq Nat.add nth].
  - unfold formula4, resonance, sum_over. cbn [map fold_right]. rewrite Rplus_0_r. apply squared_sqrt.
  - rewrite fpow_pos by assumption. unfold formula4, resonance, sum_over. cbn [map fold_right fst snd]. rewrite Rplus_0_r. apply squared_sqrt.
Qed.
(** With two powers the second pair of coefficients is not the one that is read: 1 + 1 + w^2
    comes out as 2. *)
Theorem C151_resonances_refuted : exists c1 c2 c3 c4 c5 c6 c7 c8 c9 ps lo hi lam,
  covered lo hi lam /\ 0 < lam /\ 0 < c4 /\ 0 < c8 /\ length ps = 2%nat /\ 
  0 <= formula4 (lam / 1000) c1 c2 c3 c4 c5 c6 c7 c8 c9 ps /\
  exists n, formula_index 4 ([c1; c2; c3; c4; c5; c6; c7; c8; c9] ++ flat ps) lo hi lam = Ok (Some n) /\
    n * n <> formula4 (lam / 1000) c1 c2 c3 c4 c5 c6 c7 c8 c9 ps.
Proof.
  exists 1, 0, 0, (1 / 2), 1, 0, 0, (1 / 2), 1, [(1, 0); (1, 2)], (1 / 2), 2, 1000.
  assert (Hc : covered (1 / 2) 2 1000) by (unfold covered; lra).
  assert (R1 : forall e, Rpower 1 e = 1) by (intros e; unfold Rpower; rewrite ln_1, Rmult_0_r; apply exp_0).
  assert (E : formula4 (1000 / 1000) 1 0 0 (1 / 2) 1 0 0 (1 / 2) 1 [(1, 0); (1, 2)] = 3).
  { replace (1000 / 1000) with 1 by lra. unfold formula4, resonance, sum_over. cbn [map fold_right fst snd]. rewrite !R1. lra. }
  split; [exact Hc|]. split; [lra|]. split; [lra|]. split; [lra|]. split; [reflexivity|]. rewrite E. split; [lra|].
  exists (sqrt 2). split.
  - rewrite formula_covered by exact Hc. replace (1000 / 1000) with 1 by lra. unfold formula_value, coef.
    cbn [app flat flat_map nth_error bindR skipn firstn fst snd]. unfold four. cbn [bindR].
    cbn [length Nat.div Nat.divmod fold_left seq Nat.add nth fst snd]. rewrite !fpow_pos by lra. rewrite !R1.
    unfold np_sqrt. match goal with |- context [Rlt_dec ?x 0] => replace x with 2 by lra end. destruct (Rlt_dec 2 0); [lra|reflexivity].
  - rewrite sqrt_sqrt; lra.
Qed.
(** Outside the range of the entry there is no index. *)
Theorem C151_range : forall num c lo hi lam, ~ covered lo hi lam -> formula_index num c lo hi lam = Err RuntimeError.
Proof.
  intros num c lo hi lam H. unfold formula_index. destruct (Rle_dec lo (lam / 1000)); [|reflexivity].
  destruct (Rle_dec (lam / 1000) hi); [|reflexivity]. exfalso. apply H. split; assumption.
Qed.
(** Non-trivial cases. *)
Example C151_example_sellmeier : exists n, formula_index 1 (0 :: flat [(3, 1); (0, 0)]) 1 4 2000 = Ok (Some n) /\ 0 <= n /\ n * n = 5.
Proof.
  destruct (C151_sellmeier 0 [(3, 1); (0, 0)] 1 4 2000) as [H _]; [unfold covered; lra|]. cbv zeta in H.
  replace (1 + 0 + sum_over (fun b l => b * (2000 / 1000) ^ 2 / ((2000 / 1000) ^ 2 - l ^ 2)) [(3, 1); (0, 0)]) with 5 in H.
  - apply H. lra.
  - unfold sum_over. cbn [map fold_right fst snd]. field.
Qed.
Example C151_example_gases : formula_index 6 (0 :: flat [(1, 1); (2, 3)]) 1 4 2000 = Ok (Some (1 + 4 / 3 + 8 / 11)).
Proof.
  rewrite C151_gases by (unfold covered; lra). f_equal. f_equal. unfold sum_over. cbn [map fold_right fst snd]. field.
Qed.
Example C151_example_herzberger : formula_index 7 [1; 0; 0; 1; 2] 1 4 2000 = Ok (Some 37).
Proof. rewrite C151_herzberger by (unfold covered; lra). f_equal. f_equal. cbn [even_powers]. replace (2000 / 1000) with 2 by lra. unfold Rdiv. ring. Qed.
Example C151_example_retro : exists n, formula_index 8 [1 / 4; 0; 0; 0] 1 4 2000 = Ok (Some n) /\ 0 <= n /\ (n ^ 2 - 1) / (n ^ 2 + 2) = 1 / 4.
Proof.
  destruct (C151_retro (1 / 4) 0 0 0 1 4 2000) as (n & H1 & H2 & H3); [unfold covered; lra|lra|].
  exists n. split; [exact H1|]. split; [exact H2|]. rewrite H3. lra.
Qed.

(** * C152: what is stored and what a material returns *)
(** What an entry adds to the tables. *)
Definition adds (points : nat) (e : nat * option (list item)) : tables := insert_entry points (Tables [] [] []) e.
Lemma insert_adds points t e : insert_entry points t e =
  Tables (t_pages t ++ t_pages (adds points e)) (t_n t ++ t_n (adds points e)) (t_k t ++ t_k (adds points e)).
Proof.
  destruct t as [a b c]. unfold adds, insert_entry. destruct (snd e) as [its|]; [|now cbn; rewrite !app_nil_r].
  destruct (load_material points its) as [m|x]; [|now cbn; rewrite !app_nil_r].
  destruct (match m_n m with None => Ok None | Some d => let! r := complete_n d in Ok (Some r) end); [reflexivity|now cbn; rewrite !app_nil_r].
Qed.
Lemma fold_adds points : forall es t, fold_left (insert_entry points) es t =
  Tables (t_pages t ++ flat_map (fun e => t_pages (adds points e)) es)
         (t_n t ++ flat_map (fun e => t_n (adds points e)) es) (t_k t ++ flat_map (fun e => t_k (adds points e)) es).
Proof.
  induction es as [|e es IH]; intros t; [destruct t; cbn; now rewrite !app_nil_r|].
  cbn [fold_left flat_map]. rewrite IH, insert_adds. cbn [t_pages t_n t_k]. now rewrite !app_assoc.
Qed.
Lemma adds_ids points e : Forall (fun p => pg_id p = fst e) (t_pages (adds points e)) /\
  Forall (fun r : row => fst (fst r) = fst e) (t_n (adds points e)) /\ Forall (fun r : row => fst (fst r) = fst e) (t_k (adds points e)).
Proof.
  unfold adds, insert_entry. destruct (snd e) as [its|]; [|cbn; repeat split; constructor].
  destruct (load_material points its) as [m|x]; [|cbn; repeat split; constructor].
  destruct (match m_n m with None => Ok None | Some d => let! r := complete_n d in Ok (Some r) end) as [rn|]; [|cbn; repeat split; constructor].
  cbn [t_pages t_n t_k app]. repeat split.
  - now repeat constructor.
  - destruct rn; [|constructor]. apply Forall_forall. intros r Hr. apply in_map_iff in Hr. destruct Hr as (p & <- & _). reflexivity.
  - destruct (m_k m); [|constructor]. apply Forall_forall. intros r Hr. apply in_map_iff in Hr. destruct Hr as (p' & <- & _). reflexivity.
Qed.
Lemma filter_all {X} (f : X -> bool) l : Forall (fun x => f x = true) l -> filter f l = l.
Proof. induction 1; [reflexivity|]. cbn. rewrite H. now f_equal. Qed.
Lemma filter_none {X} (f : X -> bool) l : Forall (fun x => f x = false) l -> filter f l = [].
Proof. induction 1; [reflexivity|]. cbn. now rewrite H. Qed.
Lemma find_filter {X} (f : X -> bool) l : find f l = hd_error (filter f l).
Proof. induction l as [|x l IH]; [reflexivity|]. cbn. destruct (f x); [reflexivity|exact IH]. Qed.
(** Among numbered entries, only entry [i] contributes to what is selected by [i]. *)
Lemma select_entry {X} (f : nat * option (list item) -> list X) (key : X -> nat) :
  (forall e, Forall (fun x => key x = fst e) (f e)) ->
  forall files k i, filter (fun x => Nat.eqb (key x) (k + i)) (flat_map f (combine (seq k (length files)) files)) =
    match nth_error files i with Some o => f ((k + i)%nat, o) | None => [] end.
Proof.
  intros Hf. induction files as [|o files IH]; intros k i; [now destruct i|].
  cbn [length seq combine flat_map]. rewrite filter_app. destruct i as [|i].
  - cbn [nth_error]. rewrite Nat.add_0_r. rewrite filter_all.
    2: { eapply Forall_impl; [|apply Hf]. intros x Hx. rewrite Hx. apply Nat.eqb_refl. }
    rewrite <- (app_nil_r (f (k, o))) at 2. f_equal. apply filter_none. apply Forall_forall. intros x Hx.
    apply in_flat_map in Hx. destruct Hx as ([j o'] & Hj & Hx). apply in_combine_l in Hj. apply in_seq in Hj.
    apply (proj1 (Forall_forall _ _) (Hf _)) in Hx. cbn [fst] in Hx. apply Nat.eqb_neq. lia.
  - cbn [nth_error]. rewrite filter_none.
    2: { eapply Forall_impl; [|apply Hf]. intros x Hx. rewrite Hx. apply Nat.eqb_neq. cbn [fst]. lia. }
    cbn [app]. replace (k + S i)%nat with (S k + i)%nat by lia. apply IH.
Qed.
Lemma select0 {X} (f : nat * option (list item) -> list X) (key : X -> nat) :
  (forall e, Forall (fun x => key x = fst e) (f e)) ->
  forall files i, filter (fun x => Nat.eqb (key x) i) (flat_map f (combine (seq 0 (length files)) files)) =
    match nth_error files i with Some o => f (i, o) | None => [] end.
Proof. intros Hf files i. exact (select_entry f key Hf files 0 i). Qed.
(** An entry alone in the database. *)
Definition alone (points i : nat) (o : option (list item)) : tables := adds points (i, o).
Lemma database_entry points files i :
  let t := match nth_error files i with Some o => alone points i o | None => Tables [] [] [] end in
  material_n (create_database points files) i = material_n t i /\ material_k (create_database points files) i = material_k t i.
Proof.
  intros t. unfold create_database. rewrite fold_adds. cbn [t_pages t_n t_k app].
  unfold material_n, material_k, of_page. cbn [t_pages t_n t_k]. rewrite !find_filter.
  rewrite (select0 (fun e => t_pages (adds points e)) pg_id (fun e => proj1 (adds_ids points e))).
  rewrite (select0 (fun e => t_n (adds points e)) (fun r => fst (fst r)) (fun e => proj1 (proj2 (adds_ids points e)))).
  rewrite (select0 (fun e => t_k (adds points e)) (fun r => fst (fst r)) (fun e => proj2 (proj2 (adds_ids points e)))).
  unfold t, alone. destruct (nth_error files i) as [o|]; [|now split].
  assert (A := adds_ids points (i, o)). destruct A as (A1 & A2 & A3). cbn [fst] in A1, A2, A3.
  rewrite (filter_all (fun x => Nat.eqb (pg_id x) i) (t_pages (adds points (i, o)))).
  2: { eapply Forall_impl; [|exact A1]. intros x Hx. cbn beta in Hx. rewrite Hx. apply Nat.eqb_refl. }
  rewrite (filter_all (fun x => Nat.eqb (fst (fst x)) i) (t_n (adds points (i, o)))).
  2: { eapply Forall_impl; [|exact A2]. intros x Hx. cbn beta in Hx. rewrite Hx. apply Nat.eqb_refl. }
  rewrite (filter_all (fun x => Nat.eqb (fst (fst x)) i) (t_k (adds points (i, o)))).
  2: { eapply Forall_impl; [|exact A3]. intros x Hx. cbn beta in Hx. rewrite Hx. apply Nat.eqb_refl. }
  now split.
Qed.
(** What a page gives depends on the file of that page alone. *)
Theorem C152_independent : forall points files files' i, nth_error files i = nth_error files' i ->
  material_n (create_database points files) i = material_n (create_database points files') i /\
  material_k (create_database points files) i = material_k (create_database points files') i.
Proof.
  intros points files files' i H. destruct (database_entry points files i) as [E1 E2].
  destruct (database_entry points files' i) as [E1' E2']. cbv zeta in *. rewrite E1, E2, E1', E2', H. now split.
Qed.
(** Order. *)
Definition by_wave (l : list (R * option R)) : Prop := StronglySorted (fun p q => fst p <= fst q) l.
Lemma insert_by_wave_perm p l : Permutation (insert_by_wave p l) (p :: l).
Proof.
  induction l as [|x l IH]; [reflexivity|]. cbn. destruct (Rle_dec (fst p) (fst x)); [reflexivity|].
  rewrite IH. apply perm_swap.
Qed.
Lemma order_perm l : Permutation (order_by_wave l) l.
Proof. induction l as [|x l IH]; [reflexivity|]. cbn. rewrite insert_by_wave_perm. now constructor. Qed.
Lemma insert_by_wave_sorted p l : by_wave l -> by_wave (insert_by_wave p l).
Proof.
  induction 1 as [|x l H IH F]; [repeat constructor|]. cbn. destruct (Rle_dec (fst p) (fst x)) as [L|L].
  - constructor; [constructor; assumption|]. constructor; [exact L|]. eapply Forall_impl; [|exact F]. cbn. intros; lra.
  - constructor; [exact IH|]. apply Forall_forall. intros q Hq. apply (Permutation_in _ (insert_by_wave_perm p l)) in Hq.
    destruct Hq as [<-|Hq]; [lra|]. apply (proj1 (Forall_forall _ _) F). exact Hq.
Qed.
Lemma order_sorted l : by_wave (order_by_wave l).
Proof. induction l as [|x l IH]; [constructor|]. cbn. now apply insert_by_wave_sorted. Qed.
Definition sorted_copy (l l0 : list (R * option R)) : Prop := by_wave l /\ Permutation l l0.
(** A file with wavelength, n and k in each row. *)
Definition row3 (x : R * R * R) : list R := [fst (fst x); snd (fst x); snd x].
Definition nk_file (rows : list (R * R * R)) : list item := [Tabulated "nk" (map row3 rows)].
Lemma read_row3 rows : read_rows (map row3 rows) =
  Ok (map (fun x => fst (fst x)) rows, map (fun x => snd (fst x)) rows, map snd rows).
Proof. induction rows as [|[[w n] k] rows IH]; [reflexivity|]. cbn [map row3 fst snd read_rows]. rewrite IH. reflexivity. Qed.
Lemma combine_map2 {X A B} (f : X -> A) (g : X -> B) l : combine (map f l) (map Some (map g l)) = map (fun x => (f x, Some (g x))) l.
Proof. induction l as [|x l IH]; [reflexivity|]. cbn. now rewrite IH. Qed.
Lemma adds_nk points i rows : rows <> [] -> alone points i (Some (nk_file rows)) =
  Tables [Page i true true] (map (fun x => (i, fst (fst x), Some (snd (fst x)))) rows) (map (fun x => (i, fst (fst x), Some (snd x))) rows).
Proof.
  intros Hr. assert (L : (length rows =? 0)%nat = false) by (destruct rows; [congruence|reflexivity]).
  unfold alone, adds, insert_entry, nk_file. cbn [fst snd]. unfold load_material. cbn [load_items load_item]. rewrite read_row3. cbn [bindR fst snd].
  change (String.eqb "nk" "n") with false. change (String.eqb "nk" "k") with false. change (String.eqb "nk" "nk") with true. cbv iota.
  unfold tabulated_n, extinction. rewrite !map_length, L, !Nat.eqb_refl.
  assert (Q : forall (c : bool) (A : Type) (x : A), (if c then x else x) = x) by (intros [] A x; reflexivity).
  destruct (Req_EM_T (min_of (map (fun x => fst (fst x)) rows)) (max_of (map (fun x => fst (fst x)) rows)));
  cbn [bindR ld_n ld_k m_n m_k complete_n]; rewrite !map_length, Nat.leb_refl; cbn [bindR t_pages t_n t_k app]; unfold complete_k; cbn [fst snd];
  rewrite !combine_map2, !map_map; reflexivity.
Qed.
Lemma of_page_rows {X} i (f : X -> R) (g : X -> R) rows :
  of_page i (map (fun x => (i, f x, Some (g x))) rows) = order_by_wave (map (fun x => (f x, Some (g x))) rows).
Proof.
  unfold of_page. rewrite filter_all; [now rewrite map_map|]. apply Forall_forall. intros r Hr. apply in_map_iff in Hr.
  destruct Hr as (x & <- & _). apply Nat.eqb_refl.
Qed.
(** A file of rows is stored as it is, in order of wavelength, whatever the other files are. *)
Theorem C152_rows : forall points files i rows, nth_error files i = Some (Some (nk_file rows)) -> rows <> [] ->
  exists ln lk, material_n (create_database points files) i = Some ln /\ material_k (create_database points files) i = Some lk /\
    sorted_copy ln (map (fun x => (fst (fst x), Some (snd (fst x)))) rows) /\ sorted_copy lk (map (fun x => (fst (fst x), Some (snd x))) rows).
Proof.
  intros points files i rows Hi Hr. destruct (database_entry points files i) as [E1 E2]. cbv zeta in E1, E2. rewrite Hi, adds_nk in E1, E2 by exact Hr.
  unfold material_n in E1 at 2. unfold material_k in E2 at 2. cbn [t_pages find pg_id pg_n pg_k t_n t_k] in E1, E2.
  rewrite Nat.eqb_refl in E1, E2. rewrite of_page_rows in E1, E2.
  eexists. eexists. split; [exact E1|]. split; [exact E2|]. split; (split; [apply order_sorted|apply order_perm]).
Qed.
(** A formula is stored as its values at equally spaced points of its range. *)
Lemma mapRR_map {X Y} (f : X -> res Y) (g : X -> Y) l : (forall x, In x l -> f x = Ok (g x)) -> mapRR f l = Ok (map g l).
Proof.
  induction l as [|x l IH]; intros H; [reflexivity|]. cbn [mapRR map]. rewrite H by now left. cbn [bindR].
  rewrite IH by (intros; apply H; now right). reflexivity.
Qed.
Theorem C152_formula : forall points files i num c lo hi f, nth_error files i = Some (Some [Formula num c lo hi]) ->
  (2 <= points)%nat -> lo <= hi -> (forall w, lo <= w <= hi -> formula_index num c lo hi (w * 1000) = Ok (f w)) ->
  exists ln, material_n (create_database points files) i = Some ln /\ material_k (create_database points files) i = None /\
    sorted_copy ln (map (fun q => let w := lo + (hi - lo) * (INR q / INR (points - 1)) in (w, f w)) (seq 0 points)).
Proof.
  intros points files i num c lo hi f Hi Hp Hl Hf. destruct (database_entry points files i) as [E1 E2]. cbv zeta in E1, E2.
  assert (EA : alone points i (Some [Formula num c lo hi]) =
    Tables [Page i true false] (map (fun w => (i, w, f w)) (linspace lo hi points)) []).
  { unfold alone, adds, insert_entry. cbn [fst snd]. unfold load_material. cbn [load_items load_item bindR ld_n ld_k ld_points m_n m_k complete_n].
    rewrite (mapRR_map _ (fun w => (w, f w))).
    - cbn [bindR t_pages t_n t_k app]. now rewrite map_map.
    - intros w Hw. rewrite Hf; [reflexivity|]. unfold linspace in Hw. apply in_map_iff in Hw. destruct Hw as (q & <- & Hq). apply in_seq in Hq.
      assert (P : 0 < INR (points - 1)) by (apply lt_0_INR; lia). assert (Q0 := pos_INR q).
      assert (Q1 : INR q <= INR (points - 1)) by (apply le_INR; lia).
      assert (B : 0 <= INR q / INR (points - 1) <= 1).
      { split; [apply Rmult_le_pos; [exact Q0|left; now apply Rinv_0_lt_compat]|]. apply Rmult_le_reg_r with (INR (points - 1)); [exact P|].
        unfold Rdiv. rewrite Rmult_assoc, Rinv_l by lra. lra. }
      unfold Rdiv in *. rewrite Rmult_assoc. nra. }
  rewrite Hi, EA in E1, E2. unfold material_n in E1 at 2. unfold material_k in E2 at 2.
  cbn [t_pages find pg_id pg_n pg_k t_n t_k] in E1, E2. rewrite Nat.eqb_refl in E1, E2.
  eexists. split; [exact E1|]. split; [exact E2|]. unfold of_page. split; [apply order_sorted|].
  rewrite order_perm, filter_all.
  - unfold linspace. rewrite !map_map. cbn [fst snd]. apply Permutation_refl'. apply map_ext. intros q. cbv zeta. unfold Rdiv. now rewrite Rmult_assoc.
  - apply Forall_forall. intros r Hr. apply in_map_iff in Hr. destruct Hr as (x & <- & _). apply Nat.eqb_refl.
Qed.
(** When the formula comes with a table of k the number asked for is not what is stored. *)
Theorem C152_points_refuted : exists points its ln,
  (forall w, 1 <= w <= 2 -> formula_index 5 [3; 1; 1] 1 2 (w * 1000) = Ok (Some (3 + w))) /\
  its = [Formula 5 [3; 1; 1] 1 2; Tabulated "k" [[1; 0]; [2; 0]]] /\
  material_n (create_database points [Some its]) 0 = Some ln /\ points = 100%nat /\ length ln = 2%nat.
Proof.
  exists 100%nat, [Formula 5 [3; 1; 1] 1 2; Tabulated "k" [[1; 0]; [2; 0]]].
  assert (F : forall w, 1 <= w <= 2 -> formula_index 5 [3; 1; 1] 1 2 (w * 1000) = Ok (Some (3 + w))).
  { intros w Hw. change [3; 1; 1] with (3 :: flat [(1, 1)]). destruct (C151_powers 3 [(1, 1)] 1 2 (w * 1000)) as [_ E]; [unfold covered; lra|lra|].
    cbv zeta in E. rewrite E. f_equal. f_equal. unfold sum_over. cbn [map fold_right fst snd]. replace (w * 1000 / 1000) with w by field.
    rewrite Rpower_1 by lra. lra. }
  destruct (database_entry 100 [Some [Formula 5 [3; 1; 1] 1 2; Tabulated "k" [[1; 0]; [2; 0]]]] 0) as [E1 _]. cbv zeta in E1. cbn [nth_error] in E1.
  assert (EA : t_pages (alone 100 0 (Some [Formula 5 [3; 1; 1] 1 2; Tabulated "k" [[1; 0]; [2; 0]]])) = [Page 0 true true] /\
               t_n (alone 100 0 (Some [Formula 5 [3; 1; 1] 1 2; Tabulated "k" [[1; 0]; [2; 0]]])) = map (fun w => (0%nat, w, Some (3 + w))) (linspace 1 2 2)).
  { unfold alone, adds, insert_entry. cbn [fst snd]. unfold load_material. cbn [load_items load_item bindR ld_n ld_k ld_points ld_formula read_rows fst snd].
    change (String.eqb "k" "n") with false. change (String.eqb "k" "k") with true. cbv iota. unfold extinction. cbn [length Nat.eqb bindR ld_n ld_k ld_points m_n m_k complete_n].
    rewrite (mapRR_map _ (fun w => (w, Some (3 + w)))).
    - cbn [bindR t_pages t_n t_k app]. now rewrite map_map.
    - intros w Hw. rewrite F; [reflexivity|]. unfold linspace in Hw. cbn [seq map] in Hw.
      change (2 - 1)%nat with 1%nat in Hw. change (INR 0) with 0 in Hw. change (INR 1) with 1 in Hw. destruct Hw as [<-|[<-|[]]]; lra. }
  destruct EA as [EA1 EA2]. unfold material_n in E1 at 2. rewrite EA1, EA2 in E1. cbn [find pg_id pg_n] in E1. rewrite Nat.eqb_refl in E1.
  eexists. split; [exact F|]. split; [reflexivity|]. split; [exact E1|]. split; [reflexivity|].
  unfold of_page. rewrite (Permutation_length (order_perm _)), map_length, filter_all; [now rewrite map_length, linspace_length|].
  apply Forall_forall. intros r Hr. apply in_map_iff in Hr. destruct Hr as (x & <- & _). reflexivity.
Qed.
(** A page that is not there gives n = 1 and k = 0, without an error. *)
Theorem C152_missing : forall points files d i x, k_nk d = true -> k_file d = DbFile (create_database points files) ->
  nth_error files i = None \/ nth_error files i = Some None -> nk_n d i x = Ok 1 /\ nk_k d i x = Ok 0.
Proof.
  intros points files d i x Hn Hf Hi. destruct (database_entry points files i) as [E1 E2]. cbv zeta in E1, E2.
  unfold nk_n, nk_k, nk_interpolated, nkdb_load. rewrite Hn, Hf, E1, E2. destruct Hi as [-> | ->]; split; reflexivity.
Qed.
(** At the wavelengths of the file a material returns the n and the k of the file. *)
Lemma values_all {X} (f g : X -> R) rows l : Permutation l (map (fun x => (f x, Some (g x))) rows) ->
  exists xs, Permutation xs rows /\ l = map (fun x => (f x, Some (g x))) xs.
Proof.
  intros H. apply Permutation_map_inv in H. destruct H as (xs & E & P). exists xs. split; [now symmetry|exact E].
Qed.
Lemma values_map {X} (f g : X -> R) xs : values (map (fun x => (f x, Some (g x))) xs) = Some (map g xs).
Proof. induction xs as [|x xs IH]; [reflexivity|]. cbn. unfold values in IH. now rewrite IH. Qed.
Lemma sorted_distinct_increasing l : StronglySorted Rle l -> NoDup l -> increasing l.
Proof.
  intros HS. induction HS as [|x l HS IH F]; intros ND i j H; [cbn in H; lia|].
  inversion ND as [|? ? N1 N2]; subst. destruct j as [|j]; [lia|]. cbn [length] in H. destruct i as [|i].
  - cbn [nth]. assert (Hin : In (nth j l 0) l) by (apply nth_In; lia). assert (L := proj1 (Forall_forall _ _) F _ Hin). cbn beta in L.
    destruct L as [L|L]; [exact L|]. exfalso. apply N1. now rewrite L.
  - cbn [nth]. apply (IH N2). lia.
Qed.
Lemma ssorted_map {X} (f : X -> R * option R) (g : X -> R) xs : (forall x, g x = fst (f x) * / 10 ^ 6) -> by_wave (map f xs) ->
  StronglySorted Rle (map g xs).
Proof.
  intros E. induction xs as [|x xs IH]; intros H; [constructor|]. cbn [map] in *. inversion H as [|? ? H1 H2]; subst. constructor; [now apply IH|].
  apply Forall_forall. intros y Hy. apply in_map_iff in Hy. destruct Hy as (z & <- & Hz). rewrite !E.
  assert (L : fst (f x) <= fst (f z)) by (apply (proj1 (Forall_forall _ _) H2 (f z)); now apply in_map).
  assert (P : 0 < / 10 ^ 6) by (apply Rinv_0_lt_compat; lra). nra.
Qed.
Lemma node_value {X} (f g : X -> R) rows l x0 : sorted_copy l (map (fun x => (f x, Some (g x))) rows) -> NoDup (map f rows) -> In x0 rows ->
  exists v, values l = Some v /\ np_interp (map (fun p => fst p * / 10 ^ 6) l) v (f x0 * / 10 ^ 6) = g x0.
Proof.
  intros [HS HP] ND Hin. destruct (values_all f g rows l HP) as (xs & P & ->). exists (map g xs). split; [apply values_map|].
  rewrite map_map. cbn [fst]. assert (Hx : In x0 xs) by (now apply (Permutation_in _ (Permutation_sym P))).
  apply In_nth_error in Hx. destruct Hx as (q & Hq).
  assert (Lq : (q < length xs)%nat) by (apply nth_error_Some; congruence).
  assert (A : forall h : X -> R, nth q (map h xs) 0 = h x0).
  { intros h. apply nth_error_nth. rewrite nth_error_map, Hq. reflexivity. }
  rewrite <- (A g), <- (A (fun x => f x * / 10 ^ 6)). apply np_interp_node; [|now rewrite map_length].
  apply sorted_distinct_increasing.
  - apply (ssorted_map (fun x => (f x, Some (g x)))); [reflexivity|exact HS].
  - assert (N2 : NoDup (map f xs)) by (eapply Permutation_NoDup; [|exact ND]; apply Permutation_map; now symmetry).
    rewrite <- (map_map f (fun w => w * / 10 ^ 6)). apply FinFun.Injective_map_NoDup; [|exact N2].
    intros a b E. apply Rmult_eq_reg_r in E; [exact E|]. apply Rinv_neq_0_compat. lra.
Qed.
Theorem C152_nodes : forall points files d i rows w n k, k_nk d = true -> k_file d = DbFile (create_database points files) ->
  nth_error files i = Some (Some (nk_file rows)) -> NoDup (map (fun x => fst (fst x)) rows) -> In (w, n, k) rows ->
  nk_n d i (w / 1000000) = Ok n /\ nk_k d i (w / 1000000) = Ok k.
Proof.
  intros points files d i rows w n k Hn Hf Hi ND Hin.
  assert (Hr : rows <> []) by (intros ->; destruct Hin).
  destruct (C152_rows points files i rows Hi Hr) as (ln & lk & E1 & E2 & S1 & S2).
  destruct (node_value _ _ rows ln (w, n, k) S1 ND Hin) as (v1 & V1 & I1).
  destruct (node_value _ _ rows lk (w, n, k) S2 ND Hin) as (v2 & V2 & I2). cbn [fst snd] in I1, I2.
  assert (X : w / 1000000 = w * / 10 ^ 6) by (unfold Rdiv; do 2 f_equal; ring).
  unfold nk_n, nk_k, nk_interpolated, nkdb_load. rewrite Hn, Hf, E1, E2. cbn [snd].
  destruct ln as [|p ln].
  { exfalso. destruct S1 as [_ P]. apply Permutation_nil in P. destruct rows; [congruence|discriminate]. }
  destruct lk as [|q lk].
  { exfalso. destruct S2 as [_ P]. apply Permutation_nil in P. destruct rows; [congruence|discriminate]. }
  rewrite V1, V2, X, I1, I2. now split.
Qed.
(** Three files, one of them unreadable; the rows of the last are not in order. *)
Definition three_files : list (option (list item)) :=
  [Some [Formula 5 [3; 1; 1] 1 2]; None; Some (nk_file [(2, 3, 4); (1, 5, 6)])].
Example C152_example : let d := Disk true true (DbFile (create_database 50 three_files)) in
  nk_n d 1 (1 / 1000000) = Ok 1 /\ nk_k d 1 (1 / 1000000) = Ok 0 /\ nk_n d 2 (1 / 1000000) = Ok 5 /\ nk_k d 2 (2 / 1000000) = Ok 4.
Proof.
  intros d. destruct (C152_missing 50 three_files d 1 (1 / 1000000) eq_refl eq_refl (or_intror eq_refl)) as [A B].
  assert (ND : NoDup (map (fun x => fst (fst x)) [(2, 3, 4); (1, 5, 6)])).
  { cbn. repeat constructor; cbn; intros H; decompose [or] H; try lra; auto. }
  destruct (C152_nodes 50 three_files d 2 _ 1 5 6 eq_refl eq_refl eq_refl ND) as [C _]; [cbn; auto|].
  destruct (C152_nodes 50 three_files d 2 _ 2 3 4 eq_refl eq_refl eq_refl ND) as [_ D]; [cbn; auto|].
  repeat split; assumption.
Qed.
Example C152_example_formula : exists ln, material_n (create_database 50 three_files) 0 = Some ln /\ length ln = 50%nat.
Proof.
  destruct (C152_formula 50 three_files 0 5 [3; 1; 1] 1 2 (fun w => Some (3 + w)) eq_refl) as (ln & E & _ & _ & P); [lia|lra| |].
  - intros w Hw. change [3; 1; 1] with (3 :: flat [(1, 1)]). destruct (C151_powers 3 [(1, 1)] 1 2 (w * 1000)) as [_ E]; [unfold covered; lra|lra|].
    cbv zeta in E. rewrite E. f_equal. f_equal. unfold sum_over. cbn [map fold_right fst snd]. replace (w * 1000 / 1000) with w by field.
    rewrite Rpower_1 by lra. lra.
  - exists ln. split; [exact E|]. now rewrite (Permutation_length P), map_length, seq_length.
Qed.

(** * C153: downloading the database *)
(** A confirmed download puts the database of the server in place, whatever was there, as long as
    the location is configured or nothing stands in its way. *)
Definition location_ok (d : disk) : Prop := k_nk d = true \/ k_file d <> NoFile \/ k_folder d = false.
Theorem C153_download : forall points answer files d, location_ok d ->
  exists d', download_db points true answer (Some files) d = (d', Ok tt) /\ k_nk d' = true /\ k_file d' = DbFile (create_database points files).
Proof.
  intros points answer files [nk fo fi] H. unfold location_ok in H. cbn [k_nk k_file k_folder] in H. unfold download_db. cbn [k_nk k_file k_folder].
  destruct nk; [|destruct fi as [| |t]; [destruct fo; [destruct H as [H|[H|H]]; congruence|]| |]]; cbn [fst snd k_file k_nk k_folder];
  try (destruct fi); eexists; repeat split; reflexivity.
Qed.
(** The answers that are taken for a yes: the substrings of "Yy". *)
Definition yes (answer : string) : Prop := In answer ["Y"; "y"; "Yy"; ""]%string.
Lemma in_Yy_spec answer : in_Yy answer = true <-> yes answer.
Proof.
  unfold in_Yy, yes. rewrite !orb_true_iff, !String.eqb_eq. cbn. intuition.
Qed.
(** Saying yes replaces the file. *)
Theorem C153_replace : forall points answer files d, yes answer -> k_file d <> NoFile ->
  exists d', download_db points false answer (Some files) d = (d', Ok tt) /\ k_nk d' = true /\ k_file d' = DbFile (create_database points files).
Proof.
  intros points answer files [nk fo fi] Ha H. apply in_Yy_spec in Ha. cbn [k_file] in H. unfold download_db. cbn [k_nk k_file k_folder].
  destruct nk, fi; try congruence; cbn [fst snd k_file k_nk k_folder]; rewrite Ha; eexists; repeat split; reflexivity.
Qed.
(** Answering anything but yes to the question keeps the file. *)
Theorem C153_keep : forall points answer reply d, ~ yes answer -> location_ok d ->
  exists d', download_db points false answer reply d = (d', Ok tt) /\ k_nk d' = true /\ k_file d' = k_file d.
Proof.
  intros points answer reply [nk fo fi] Ha0 H.
  assert (Ha : in_Yy answer = false) by (destruct (in_Yy answer) eqn:E; [exfalso; apply Ha0; now apply in_Yy_spec|reflexivity]).
  unfold location_ok in H. cbn [k_nk k_file k_folder] in H. unfold download_db. cbn [k_nk k_file k_folder].
  destruct nk; [|destruct fi as [| |t]; [destruct fo; [destruct H as [H|[H|H]]; congruence|]| |]]; cbn [fst snd k_file k_nk k_folder]; rewrite ?Ha;
  try (destruct fi); eexists; repeat split; reflexivity.
Qed.
(** What comes after a download: a material of a page with rows returns them. *)
Theorem C153_then_nodes : forall points answer files d i rows w n k, location_ok d ->
  nth_error files i = Some (Some (nk_file rows)) -> NoDup (map (fun x => fst (fst x)) rows) -> In (w, n, k) rows ->
  let d' := fst (download_db points true answer (Some files) d) in
  nk_n d' i (w / 1000000) = Ok n /\ nk_k d' i (w / 1000000) = Ok k.
Proof.
  intros points answer files d i rows w n k Hl Hi ND Hin d'. destruct (C153_download points answer files d Hl) as (d1 & E & N & F).
  unfold d'. rewrite E. cbn [fst]. eapply C152_nodes; eassumption.
Qed.
(** The manual tells the user to call [download_db()] before the first use. Without [confirm] and
    without a file the call ends well, downloads nothing and every material is n = 1, k = 0. *)
Theorem C153_first_use_refuted : exists d, location_ok d /\ forall points answer reply,
  snd (download_db points false answer reply d) = Ok tt /\ k_file (fst (download_db points false answer reply d)) = NoFile /\
  forall i x, nk_n (fst (download_db points false answer reply d)) i x = Ok 1 /\ nk_k (fst (download_db points false answer reply d)) i x = Ok 0.
Proof.
  exists (Disk false false NoFile). split; [right; right; reflexivity|]. intros points answer reply. repeat split; reflexivity.
Qed.
(** When the server does not deliver, the database that was there is gone. *)
Theorem C153_failed_refuted : exists points files d i w,
  k_nk d = true /\ k_file d = DbFile (create_database points files) /\ nk_n d i w = Ok 5 /\
  exists d' e, download_db points true "" None d = (d', Err e) /\ nk_n d' i w = Ok 1.
Proof.
  exists 50%nat, three_files, (Disk true true (DbFile (create_database 50 three_files))), 2%nat, (1 / 1000000).
  destruct C152_example as (_ & _ & A & _). split; [reflexivity|]. split; [reflexivity|]. split; [exact A|].
  eexists. exists RuntimeError. split; reflexivity.
Qed.
(** A folder without the file, and no configuration: the function fails. *)
Theorem C153_folder : forall points confirm answer reply, 
  download_db points confirm answer reply (Disk false true NoFile) = (Disk false true NoFile, Err RuntimeError).
Proof. reflexivity. Qed.
Example C153_example : let d := fst (download_db 50 true "" (Some three_files) (Disk false false NoFile)) in
  nk_n d 2 (1 / 1000000) = Ok 5 /\ k_file (fst (download_db 50 false "n" (Some []) d)) = k_file d.
Proof.
  intros d. assert (ND : NoDup (map (fun x => fst (fst x)) [(2, 3, 4); (1, 5, 6)])).
  { cbn. repeat constructor; cbn; intros H; decompose [or] H; try lra; auto. }
  split.
  - refine (proj1 (C153_then_nodes 50 "" three_files (Disk false false NoFile) 2 _ 1 5 6 _ eq_refl ND _)); [right; right; reflexivity|cbn; auto].
  - destruct (C153_keep 50 "n" (Some []) d) as (d' & E & _ & F); [cbn; intros H; decompose [or] H; discriminate || assumption|left; reflexivity|]. rewrite E. exact F.
Qed.

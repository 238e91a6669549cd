(** Properties of sums of oscillators and of the dictionaries of their parameters, C185 (the model is CppbModel.v). *)
From Coq Require Import Reals Lra Lia Ascii String List Bool Arith.
From Coquelicot Require Import Complex.
From Verif Require Import Common PhysConst CppbModel CppbProps CppbProps2.
From Coq Require Import List.
Import ListNotations.
Open Scope R_scope.
Open Scope list_scope.

Lemma ok_inj_ {A} (x y : A) : Ok x = Ok y -> x = y.
Proof. intro H. apply (f_equal (fun r => match r with Ok v => v | Err _ => x end)) in H. exact H. Qed.
Lemma bind_ok {A B} (e : res A) (k : A -> res B) y : bindR e k = Ok y -> exists x, e = Ok x /\ k x = Ok y.
Proof. destruct e as [x|e]; cbn [bindR]; [|discriminate]. intro H. exists x. split; [reflexivity|exact H]. Qed.
Ltac binds H := repeat (let x := fresh "x" in let E := fresh "E" in apply bind_ok in H; destruct H as [x [E H]]).

(** * Every oscillator absorbs *)
Lemma absorptive_im z : 0 <= Im (absorptive z).
Proof. apply Rabs_pos. Qed.
Lemma method_absorbs name b f d E z : method name = Some (b, f) -> f d E = Ok z -> 0 <= Im z.
Proof.
  unfold method. intros M H.
  repeat match type of M with (if ?c then _ else _) = _ => destruct c; [injection M as <- <-|] end; [..|discriminate M].
  1: unfold osc_e0 in H. 2: unfold osc_e1 in H. 3: unfold osc_eid in H. 4: unfold osc_exciton in H.
  5: unfold osc_e2 in H. 6: unfold osc_lorentz in H.
  1-6: binds H; apply ok_inj_ in H; subst z; apply absorptive_im.
  unfold osc_sellmeier in H. destruct (Nat.odd (length d)); [discriminate H|]. binds H. apply ok_inj_ in H. subst z. cbn. lra.
Qed.
Lemma each_spec f Es zs : each f Es = Ok zs -> length zs = length Es /\ forall i, (i < length Es)%nat -> f (nth i Es 0) = Ok (nth i zs (RtoC 0)).
Proof.
  revert zs. induction Es as [|E Es IH]; intros zs H; cbn [each] in H.
  - apply ok_inj_ in H. subst zs. split; [reflexivity|]. intros i Hi. cbn in Hi. lia.
  - binds H. apply ok_inj_ in H. subst zs. destruct (IH _ E1) as [L N]. split; [cbn; lia|].
    intros [|i] Hi; [exact E0|]. apply N. cbn in Hi. lia.
Qed.
Lemma component_spec heap o Es zs h2 : component heap o Es = Ok (zs, h2) ->
  length zs = length Es /\ forall i, (i < length Es)%nat -> 0 <= Im (nth i zs (RtoC 0)).
Proof.
  unfold component. destruct (method (oname o)) as [[[] f]|] eqn:M; [| |discriminate]; intro H; binds H;
    apply ok_inj_ in H; injection H as <- <-;
    match goal with E : each _ Es = Ok _ |- _ => destruct (each_spec _ _ _ E) as [L N] end;
    (split; [exact L|]; intros i Hi; exact (method_absorbs _ _ _ _ _ _ M (N i Hi))).
Qed.
(** * The sum *)
Definition col (rows : list (list C)) (i : nat) : C := csum (map (fun r => nth i r (RtoC 0)) rows).
Lemma add_rows_spec rows n : Forall (fun r => length r = n) rows ->
  length (add_rows rows n) = n /\ forall i, (i < n)%nat -> nth i (add_rows rows n) (RtoC 0) = col rows i.
Proof.
  induction 1 as [|r rows Hr Hrs [IL IN]]; cbn [add_rows].
  - split; [apply repeat_length|]. intros i Hi. rewrite nth_repeat. reflexivity.
  - split; [rewrite map_length, combine_length; lia|]. intros i Hi.
    rewrite (nth_indep _ (RtoC 0) ((fun ab : C * C => (fst ab + snd ab)%C) (RtoC 0, RtoC 0))) by (rewrite map_length, combine_length; lia).
    rewrite (map_nth (fun ab : C * C => (fst ab + snd ab)%C)), combine_nth by lia. cbn [fst snd]. rewrite IN by exact Hi. reflexivity.
Qed.
Lemma components_spec heap os Es cs h2 : components heap os Es = Ok (cs, h2) ->
  length cs = length os /\ Forall (fun r => length r = length Es) cs
  /\ forall j i, (j < length cs)%nat -> (i < length Es)%nat -> 0 <= Im (nth i (nth j cs []) (RtoC 0)).
Proof.
  revert heap cs h2. induction os as [|o os IH]; intros heap cs h2 H; cbn [components] in H.
  - apply ok_inj_ in H. injection H as <- <-. split; [reflexivity|]. split; [constructor|]. intros j i Hj. cbn in Hj. lia.
  - binds H. destruct x as [zs hh], x0 as [rs h3]. cbn [fst snd] in *. apply ok_inj_ in H. injection H as <- <-.
    destruct (component_spec _ _ _ _ _ E) as [L N]. destruct (IH _ _ _ E0) as [IL [IF IN]].
    split; [cbn; lia|]. split; [constructor; assumption|]. intros [|j] i Hj Hi; [apply N, Hi|]. apply IN; [cbn in Hj; lia|exact Hi].
Qed.
Definition is_num (v : option val) : R := match v with Some (VNum x) => x | _ => 0 end.
Definition background (heap : list dict) (o : oscillator) : R :=
  match omat o with Some i => is_num (dget "eps1_inf" (nth i heap [])) | None => 0 end.
Lemma csum_im l : Im (csum l) = rsum (map Im l).
Proof. rewrite csum_parts. reflexivity. Qed.
(** The total is the sum of the components and of the background of the first oscillator; everything absorbs. *)
Theorem C185_total (heap : list dict) (o : oscillator) (os : list oscillator) (Es : list R) (total : list C) (cs : list (list C)) (h2 : list dict) :
  eps_calc heap (o :: os) Es = Ok (total, cs, h2) ->
  length total = length Es /\ length cs = length (o :: os) /\ (forall r, In r cs -> length r = length Es)
  /\ (forall i, (i < length Es)%nat ->
        nth i total (RtoC 0) = (csum (map (fun r => nth i r (RtoC 0)) cs) + RtoC (background h2 o))%C
        /\ 0 <= Im (nth i total (RtoC 0))
        /\ forall j, (j < length cs)%nat -> 0 <= Im (nth i (nth j cs []) (RtoC 0))).
Proof.
  unfold eps_calc. intro H. binds H. destruct x as [cs' h']. cbn [fst snd] in H. apply ok_inj_ in H.
  assert (H1 := f_equal (fun r => fst (fst r)) H). assert (H2 := f_equal (fun r => snd (fst r)) H). assert (H3 := f_equal snd H).
  cbn [fst snd] in H1, H2, H3. clear H. subst total cs' h'.
  destruct (components_spec _ _ _ _ _ E) as [L [F N]]. destruct (add_rows_spec cs (length Es) F) as [AL AN].
  split; [rewrite map_length; exact AL|]. split; [exact L|]. split; [intros r Hr; rewrite Forall_forall in F; apply F, Hr|].
  intros i Hi.
  assert (T : nth i (map (fun z => (z + RtoC (eps_inf h2 (o :: os)))%C) (add_rows cs (length Es))) (RtoC 0)
              = (csum (map (fun r => nth i r (RtoC 0)) cs) + RtoC (background h2 o))%C).
  { rewrite (nth_indep _ (RtoC 0) ((fun z => (z + RtoC (eps_inf h2 (o :: os)))%C) (RtoC 0))) by (rewrite map_length, AL; exact Hi).
    rewrite (map_nth (fun z => (z + RtoC (eps_inf h2 (o :: os)))%C)), (AN i Hi). reflexivity. }
  split; [exact T|]. split; [|intros j Hj; apply N; assumption].
  rewrite T. change (Im (csum (map (fun r => nth i r (RtoC 0)) cs) + RtoC (background h2 o))%C) with (Im (csum (map (fun r => nth i r (RtoC 0)) cs)) + 0).
  rewrite csum_im, map_map, Rplus_0_r. apply rsum_nonneg. intros x Hx. apply in_map_iff in Hx. destruct Hx as [r [<- Hr]].
  destruct (In_nth _ _ [] Hr) as [j [Hj <-]]. apply N; assumption.
Qed.

(** * Optical constants *)
Lemma nk_sq z : let n := n_func z in let k := k_func z in
  0 <= n /\ 0 <= k /\ n ^ 2 - k ^ 2 = Re z /\ 2 * n * k = Rabs (Im z).
Proof.
  cbv zeta. unfold n_func, k_func. set (x := Re z). set (y := Im z). clearbody x y. set (m := sqrt (x ^ 2 + y ^ 2)).
  assert (M : m * m = x ^ 2 + y ^ 2) by (apply sqrt_sqrt; assert (P := pow2_ge_0 x); assert (Q := pow2_ge_0 y); lra).
  assert (P : Rabs x <= m).
  { rewrite <- sqrt_Rsqr_abs. apply sqrt_le_1; [apply Rle_0_sqr| |unfold Rsqr; assert (Q := pow2_ge_0 y); lra].
    assert (P := pow2_ge_0 x); assert (Q := pow2_ge_0 y); lra. }
  assert (A : 0 <= (m + x) / 2) by (assert (Q := Rle_abs (- x)); rewrite Rabs_Ropp in Q; lra).
  assert (B : 0 <= (m - x) / 2) by (assert (Q := Rle_abs x); lra).
  split; [apply sqrt_pos|]. split; [apply sqrt_pos|].
  rewrite <- !Rsqr_pow2. split; [rewrite !Rsqr_sqrt by assumption; lra|].
  rewrite Rmult_assoc, <- sqrt_mult by assumption.
  replace ((m + x) / 2 * ((m - x) / 2)) with (Rsqr (y / 2)) by (unfold Rsqr; transitivity ((m * m - x ^ 2) / 4); [rewrite M|]; field).
  rewrite sqrt_Rsqr_abs. unfold Rdiv. rewrite Rabs_mult, (Rabs_pos_eq (/ 2)) by lra. lra.
Qed.
(** n + i k is the square root of the total with n and k not negative; alpha is 4 pi k over the wavelength,
    of the total and of every component. *)
Theorem C185_optical (heap : list dict) (o : oscillator) (os : list oscillator) (Es : list R) (total : list C) (cs : list (list C)) (h2 : list dict) :
  eps_calc heap (o :: os) Es = Ok (total, cs, h2) ->
  exists ns ks als alcs, nk_calc heap (o :: os) Es = Ok (ns, ks) /\ alpha_calc heap (o :: os) Es = Ok (als, alcs)
  /\ length alcs = length cs
  /\ forall i, (i < length Es)%nat ->
       0 <= nth i ns 0 /\ 0 <= nth i ks 0
       /\ ((nth i ns 0, nth i ks 0) * (nth i ns 0, nth i ks 0))%C = nth i total (RtoC 0)
       /\ (nth i Es 0 <> 0 -> nth i als 0 * (h * c / (nth i Es 0 * q)) = 4 * PI * nth i ks 0)
       /\ forall j, (j < length cs)%nat -> exists n k, 0 <= n /\ 0 <= k
            /\ ((n, k) * (n, k))%C = nth i (nth j cs []) (RtoC 0)
            /\ (nth i Es 0 <> 0 -> nth i (nth j alcs []) 0 * (h * c / (nth i Es 0 * q)) = 4 * PI * k).
Proof.
  intro H. destruct (C185_total _ _ _ _ _ _ _ H) as [TL [CL [RL T]]].
  unfold nk_calc, alpha_calc. rewrite H. cbn [bindR fst snd]. do 4 eexists. split; [reflexivity|]. split; [reflexivity|].
  split; [apply map_length|]. intros i Hi. destruct (T i Hi) as [_ [TI CI]].
  assert (SQ : forall z, 0 <= Im z -> ((n_func z, k_func z) * (n_func z, k_func z))%C = z).
  { intros z Hz. destruct (nk_sq z) as [_ [_ [A B]]]. rewrite (Rabs_pos_eq _ Hz) in B.
    destruct z as [x y]. cbn [Re Im fst snd] in A, B. unfold Cmult. cbn [fst snd]. apply injective_projections; cbn [fst snd]; [etransitivity; [|exact A]|etransitivity; [|exact B]]; ring. }
  assert (N1 : forall g : C -> R, nth i (map g total) 0 = g (nth i total (RtoC 0))).
  { intro g. rewrite (nth_indep _ 0 (g (RtoC 0))) by (rewrite map_length; lia). apply map_nth. }
  assert (AL : forall zs, length zs = length Es ->
    nth i (map (fun ez : R * C => alpha_func (fst ez) (k_func (snd ez))) (combine Es zs)) 0 = alpha_func (nth i Es 0) (k_func (nth i zs (RtoC 0)))).
  { intros zs Hz. rewrite (nth_indep _ 0 ((fun ez : R * C => alpha_func (fst ez) (k_func (snd ez))) (0, RtoC 0))) by (rewrite map_length, combine_length; lia).
    rewrite (map_nth (fun ez : R * C => alpha_func (fst ez) (k_func (snd ez)))), combine_nth by lia. reflexivity. }
  assert (AF : forall E k, E <> 0 -> alpha_func E k * (h * c / (E * q)) = 4 * PI * k).
  { intros E k HE. unfold alpha_func. assert (Hh := h_pos). assert (Hc := c_pos). assert (Hq := q_pos). field. repeat split; lra. }
  rewrite !N1, (AL total TL). destruct (nk_sq (nth i total (RtoC 0))) as [A [B _]].
  split; [exact A|]. split; [exact B|]. split; [apply SQ, TI|]. split; [intro HE; apply AF, HE|].
  intros j Hj. exists (n_func (nth i (nth j cs []) (RtoC 0))), (k_func (nth i (nth j cs []) (RtoC 0))).
  destruct (nk_sq (nth i (nth j cs []) (RtoC 0))) as [A2 [B2 _]].
  split; [exact A2|]. split; [exact B2|]. split; [apply SQ, CI, Hj|].
  intro HE. rewrite <- (AF _ (k_func (nth i (nth j cs []) (RtoC 0))) HE). f_equal.
  set (al := fun zs => map (fun ez : R * C => alpha_func (fst ez) (k_func (snd ez))) (combine Es zs)).
  change (nth i (nth j (map al cs) []) 0 = alpha_func (nth i Es 0) (k_func (nth i (nth j cs []) (RtoC 0)))).
  rewrite (nth_indep _ [] (al [])) by (rewrite map_length; exact Hj). rewrite (map_nth al). unfold al.
  apply AL, RL, nth_In, Hj.
Qed.

(** * Sellmeier *)
Open Scope string_scope.
(** The terms A1, L1, A2, L2, ... in any order *)
Theorem C185_sellmeier (d : dict) (E : R) (n : nat) (A L : nat -> R) :
  length d = (2 * n)%nat ->
  (forall i, (1 <= i <= n)%nat -> has d ("A" ++ numeral i) (A i) /\ has d ("L" ++ numeral i) (L i)) ->
  let lam := h * c / (q * E) * 10 ^ 6 in E <> 0 ->
  osc_sellmeier d E = Ok (RtoC (1 + rsum (map (fun i => A i * lam ^ 2 / (lam ^ 2 - L i ^ 2)) (seq 1 n)))).
Proof.
  intros Hd H lam HE. unfold osc_sellmeier.
  assert (O : Nat.odd (length d) = false) by (rewrite Hd, <- Nat.negb_even, Nat.even_mul; reflexivity).
  rewrite O. rewrite Hd. replace (2 * n / 2)%nat with n by (rewrite Nat.mul_comm, Nat.div_mul; lia).
  assert (U : um / E = lam) by (unfold um, lam; assert (Hq := q_pos); field; split; [exact HE|lra]).
  assert (G : forall k i, (1 <= i)%nat -> (i + k <= S n)%nat ->
     sellmeier_sum d E i k = Ok (rsum (map (fun i => A i * lam ^ 2 / (lam ^ 2 - L i ^ 2)) (seq i k)))).
  { induction k as [|k IH]; intros i H1 H2; [reflexivity|]. cbn [sellmeier_sum seq map rsum fold_right].
    destruct (H i ltac:(lia)) as [HA HL]. rewrite (num_get _ _ _ HA), (num_get _ _ _ HL). cbn [bindR].
    rewrite IH by lia. cbn [bindR]. rewrite U. reflexivity. }
  rewrite G by lia. cbn [bindR]. f_equal. f_equal. lra.
Qed.
Theorem C185_sellmeier_odd (d : dict) (E : R) : Nat.Odd (length d) -> osc_sellmeier d E = Err ValueError.
Proof. intro H. unfold osc_sellmeier. apply Nat.odd_spec in H. rewrite H. reflexivity. Qed.
Example C185_sellmeier_ex :
  let d := [("L1", VNum (/ 2)); ("A1", VNum 3)] in let lam := h * c / (q * 2) * 10 ^ 6 in
  osc_sellmeier d 2 = Ok (RtoC (1 + (3 * lam ^ 2 / (lam ^ 2 - (/ 2) ^ 2) + 0))).
Proof.
  intros d lam. rewrite (C185_sellmeier d 2 1 (fun _ => 3) (fun _ => / 2)); [reflexivity|reflexivity| |lra].
  intros i Hi. replace i with 1%nat by lia. split; reflexivity.
Qed.
Close Scope string_scope.

(** * Dictionaries of parameters *)
Definition keys (d : dict) : list string := map fst d.
Lemma dput_same k v d : dget k d = Some v -> dput k v d = d.
Proof.
  induction d as [|[a w] d IH]; [discriminate|]. cbn [dget dput]. destruct (String.eqb_spec a k) as [->|].
  - intro H. injection H as ->. reflexivity.
  - intro H. rewrite (IH H). reflexivity.
Qed.
Lemma put_all_other k args d : ~ In k (keys args) -> dget k (put_all args d) = dget k d.
Proof.
  unfold put_all. revert d. induction args as [|[a v] args IH]; intros d H; [reflexivity|]. cbn [fold_left fst snd].
  rewrite IH by (intro X; apply H; right; exact X). rewrite dget_dput. destruct (String.eqb_spec a k) as [->|]; [|reflexivity].
  exfalso. apply H. left. reflexivity.
Qed.
Lemma put_all_in args : NoDup (keys args) -> forall d k v, In (k, v) args -> dget k (put_all args d) = Some v.
Proof.
  induction args as [|[a w] args IH]; intros ND d k v H; [contradiction|]. inversion ND as [|? ? N ND2]; subst.
  destruct H as [H|H].
  - injection H as -> ->. unfold put_all. cbn [fold_left fst snd]. fold (put_all args (dput k v d)).
    rewrite (put_all_other k args _ N), dget_dput, String.eqb_refl. reflexivity.
  - unfold put_all. cbn [fold_left fst snd]. apply (IH ND2 (dput a w d) k v H).
Qed.
Lemma put_all_fix l d : (forall k v, In (k, v) l -> dget k d = Some v) -> put_all l d = d.
Proof.
  unfold put_all. induction l as [|[a v] l IH]; intro H; [reflexivity|]. cbn [fold_left fst snd].
  rewrite (dput_same a v d (H a v (or_introl eq_refl))). apply IH. intros k w Hk. apply H. right. exact Hk.
Qed.
Lemma put_all_twice args d : NoDup (keys args) -> put_all args (put_all args d) = put_all args d.
Proof. intro ND. apply put_all_fix. intros k v H. exact (put_all_in args ND d k v H). Qed.
Lemma nth_set_nth i j x l : nth j (set_nth i x l) [] = if Nat.eq_dec i j then (if lt_dec i (length l) then x else []) else nth j l [].
Proof.
  revert i j. induction l as [|a l IH]; intros i j.
  - cbn [set_nth length]. destruct (Nat.eq_dec i j), (lt_dec i 0); try lia; destruct i, j; reflexivity.
  - destruct i as [|i], j as [|j]; cbn [set_nth nth length].
    + destruct (Nat.eq_dec 0 0), (lt_dec 0 (S (length l))); try lia; reflexivity.
    + destruct (Nat.eq_dec 0 (S j)); [lia|reflexivity].
    + destruct (Nat.eq_dec (S i) 0); [lia|reflexivity].
    + rewrite IH. destruct (Nat.eq_dec i j), (Nat.eq_dec (S i) (S j)), (lt_dec i (length l)), (lt_dec (S i) (S (length l))); try lia; reflexivity.
Qed.
Lemma set_nth_length i x l : length (set_nth i x l) = length l.
Proof. revert i. induction l as [|a l IH]; intros [|i]; cbn; auto. Qed.
Lemma set_nth_same i l : set_nth i (nth i l []) l = l.
Proof. revert i. induction l as [|a l IH]; intros [|i]; cbn; [reflexivity..|]. f_equal. apply IH. Qed.
Lemma resolve_some heap i args : resolve heap (Some i) args = Ok (put_all args (nth i heap []), set_nth i (put_all args (nth i heap [])) heap).
Proof. destruct args; reflexivity. Qed.
Lemma resolve_none heap args x : resolve heap None args = Ok x -> args <> [] /\ x = (put_all args [], heap).
Proof. destruct args; [discriminate|]. intro H. apply ok_inj_ in H. split; [discriminate|congruence]. Qed.
Lemma resolve_none_any heap args : args <> [] -> resolve heap None args = Ok (put_all args [], heap).
Proof. destruct args; [congruence|reflexivity]. Qed.
(** What one call does to the dictionaries *)
Lemma component_heap heap o Es zs h2 : component heap o Es = Ok (zs, h2) ->
  length h2 = length heap
  /\ (forall j, omat o <> Some j -> nth j h2 [] = nth j heap [])
  /\ (forall j, omat o = Some j -> nth j h2 [] = nth j heap [] \/ nth j h2 [] = put_all (oargs o) (nth j heap [])).
Proof.
  unfold component. destruct (method (oname o)) as [[[] f]|]; [| |discriminate]; intro H; binds H; apply ok_inj_ in H; injection H as <- <-.
  - destruct (omat o) as [i|].
    + rewrite resolve_some in E. apply ok_inj_ in E; subst x; cbn [snd].
      split; [apply set_nth_length|]; split;
      intros j Hj; rewrite nth_set_nth; destruct (Nat.eq_dec i j) as [->|NE]; try congruence.
      destruct (lt_dec j (length heap)); [right; reflexivity|left; rewrite nth_overflow by lia; reflexivity].
    + destruct (resolve_none _ _ _ E) as [_ ->]. cbn [snd].
      split; [reflexivity|]. split; [reflexivity|]. intros j Hj. discriminate Hj.
  - split; [reflexivity|]. split; [reflexivity|]. intros j _. left. reflexivity.
Qed.
Lemma component_again heap o Es zs (h2 h3 : list dict) : NoDup (keys (oargs o)) -> component heap o Es = Ok (zs, h2) ->
  (forall j, omat o = Some j -> (j < length heap)%nat /\ nth j h3 [] = nth j h2 []) ->
  component h3 o Es = Ok (zs, h3).
Proof.
  intros ND. unfold component. destruct (method (oname o)) as [[[] f]|]; [| |discriminate]; intros H H3; binds H; apply ok_inj_ in H; injection H as Hz Hh.
  - destruct (omat o) as [i|].
    + destruct (H3 i eq_refl) as [Li N3]. rewrite resolve_some in E. apply ok_inj_ in E.
      subst x. cbn [fst snd] in *. subst h2 x0. rewrite nth_set_nth in N3.
      destruct (Nat.eq_dec i i); [|lia]. destruct (lt_dec i (length heap)); [|lia].
      assert (Q : put_all (oargs o) (nth i h3 []) = nth i h3 []) by (rewrite N3; apply put_all_twice, ND).
      rewrite resolve_some, Q, set_nth_same. cbn [bindR fst snd]. rewrite N3, E0. reflexivity.
    + destruct (resolve_none _ _ _ E) as [NE ->]. rewrite (resolve_none_any h3 _ NE). cbn [fst snd bindR] in *. rewrite E0. cbn [bindR]. subst zs. reflexivity.
  - rewrite E. cbn [bindR]. subst zs. reflexivity.
Qed.
Lemma components_heap heap os Es cs h2 : components heap os Es = Ok (cs, h2) ->
  length h2 = length heap /\ forall j, (forall o, In o os -> omat o <> Some j) -> nth j h2 [] = nth j heap [].
Proof.
  revert heap cs h2. induction os as [|o os IH]; intros heap cs h2 H; cbn [components] in H.
  - apply ok_inj_ in H. injection H as <- <-. split; [reflexivity|]. reflexivity.
  - binds H. destruct x as [zs hh], x0 as [rs h3]. cbn [fst snd] in *. apply ok_inj_ in H. injection H as <- <-.
    destruct (component_heap _ _ _ _ _ E) as [L [N _]]. destruct (IH _ _ _ E0) as [L2 N2]. split; [lia|].
    intros j Hj. rewrite (N2 j) by (intros; apply Hj; right; assumption). apply N. apply Hj. left. reflexivity.
Qed.
Fixpoint own (os : list oscillator) : Prop :=
  match os with [] => True | o :: r => (forall j, omat o = Some j -> forall o2, In o2 r -> omat o2 <> Some j) /\ own r end.
Lemma components_again heap os Es cs h2 : own os -> Forall (fun o => NoDup (keys (oargs o)) /\ forall j, omat o = Some j -> (j < length heap)%nat) os ->
  components heap os Es = Ok (cs, h2) ->
  forall h3 : list dict, (forall o j, In o os -> omat o = Some j -> nth j h3 [] = nth j h2 []) -> components h3 os Es = Ok (cs, h3).
Proof.
  revert heap cs h2. induction os as [|o os IH]; intros heap cs h2 HO F H h3 HN; cbn [components] in *.
  - apply ok_inj_ in H. injection H as <- <-. reflexivity.
  - binds H. destruct x as [zs hh], x0 as [rs h4]. cbn [fst snd] in *. apply ok_inj_ in H. injection H as <- <-.
    inversion F as [|? ? [ND HV] F2]; subst. destruct HO as [HO1 HO2].
    destruct (component_heap _ _ _ _ _ E) as [L _]. destruct (components_heap _ _ _ _ _ E0) as [L2 N2].
    rewrite (component_again heap o Es zs hh h3 ND E).
    + cbn [bindR fst snd]. rewrite (IH hh rs h4 HO2) with (h3 := h3); [reflexivity| |exact E0|].
      * rewrite Forall_forall in *. intros o2 Ho2. destruct (F2 o2 Ho2) as [A B]. split; [exact A|]. rewrite L. exact B.
      * intros o2 j Ho2. apply HN. right. exact Ho2.
    + intros j Hj. split; [apply HV, Hj|]. rewrite (HN o j (or_introl eq_refl) Hj). apply N2. intros o2 Ho2. exact (HO1 j Hj o2 Ho2).
Qed.
(** When every oscillator has a dictionary of its own, evaluating a structure again gives the same. *)
Theorem C185_again (heap : list dict) (os : list oscillator) (Es : list R) (total : list C) (cs : list (list C)) (h2 : list dict) :
  (forall i j k, (i < j < length os)%nat -> omat (nth i os (mkOsc "" None [])) = Some k -> omat (nth j os (mkOsc "" None [])) <> Some k) ->
  (forall o, In o os -> NoDup (map fst (oargs o)) /\ forall j, omat o = Some j -> (j < length heap)%nat) ->
  eps_calc heap os Es = Ok (total, cs, h2) -> eps_calc h2 os Es = Ok (total, cs, h2).
Proof.
  intros HO HF H. unfold eps_calc in *. binds H. destruct x as [cs' h']. cbn [fst snd] in H. apply ok_inj_ in H.
  injection H as H1 H2 H3. subst cs' h'.
  assert (O : own os).
  { clear - HO. induction os as [|o os IH]; [exact I|]. split.
    - intros j Hj o2 Ho2. destruct (In_nth _ _ (mkOsc "" None []) Ho2) as [i [Hi <-]].
      exact (HO 0%nat (S i) j ltac:(cbn; lia) Hj).
    - apply IH. intros i j k Hij. exact (HO (S i) (S j) k ltac:(cbn; lia)). }
  rewrite (components_again heap os Es cs h2 O ltac:(rewrite Forall_forall; exact HF) E h2) by reflexivity.
  cbn [bindR fst snd]. rewrite H1. reflexivity.
Qed.
(** The other dictionaries are left alone, and those of oscillators without further arguments. *)
Theorem C185_frame (heap : list dict) (os : list oscillator) (Es : list R) (total : list C) (cs : list (list C)) (h2 : list dict) (j : nat) :
  (forall o, In o os -> omat o = Some j -> oargs o = []) ->
  eps_calc heap os Es = Ok (total, cs, h2) -> nth j h2 [] = nth j heap [].
Proof.
  intros HA H. unfold eps_calc in H. binds H. destruct x as [cs' h']. cbn [fst snd] in H. apply ok_inj_ in H.
  injection H as H1 H2 H3. subst cs' h'. clear H1. revert heap cs h2 E. induction os as [|o os IH]; intros heap cs h2 E; cbn [components] in E.
  - apply ok_inj_ in E. injection E as <- <-. reflexivity.
  - binds E. destruct x as [zs hh], x0 as [rs h4]. cbn [fst snd] in *. apply ok_inj_ in E. injection E as <- <-.
    rewrite (IH (fun o2 Ho2 => HA o2 (or_intror Ho2)) hh rs h4 E1).
    destruct (component_heap _ _ _ _ _ E0) as [_ [N1 N2]].
    destruct (omat o) as [i|] eqn:EM; [|apply N1; discriminate]. destruct (Nat.eq_dec i j) as [->|NE]; [|apply N1; congruence].
    destruct (N2 j eq_refl) as [X|X]; [exact X|]. rewrite X, (HA o (or_introl eq_refl) EM). reflexivity.
Qed.
Open Scope string_scope.
Definition e2_ex : dict := [("Material", VText "M"); ("Gamma_E2", VNum 1); ("Alpha_E2", VNum 0); ("E2", VNum 1); ("C", VNum 1); ("eps1_inf", VNum 2)].
Lemma broad_at g e : broad g 0 e e = g.
Proof. unfold broad. replace (-1 * 0 * ((e - e) / g) ^ 2) with 0 by ring. rewrite exp_0. lra. Qed.
Lemma e2_at d a : has d "Gamma_E2" 1 -> has d "Alpha_E2" 0 -> has d "E2" 1 -> has d "C" a -> 0 <= a -> osc_e2 d 1 = Ok (0, a).
Proof.
  intros H1 H2 H3 H4 Ha. destruct (C185_e2 d 1 0 1 a 1 1) as [E _]; try assumption; try lra; [symmetry; apply broad_at|].
  rewrite E. f_equal. apply injective_projections; cbn [fst snd]; field.
Qed.
(** Arguments of one oscillator change the others that share its dictionary, from the next evaluation on: the
    component of the first oscillator is [i] and then [3 i], although nothing was changed. *)
Theorem C185_leak_refuted :
  exists heap os total1 cs1 h1 total2 cs2 h2,
    os = [mkOsc "E2" (Some 0%nat) []; mkOsc "E2" (Some 0%nat) [("C", VNum 3)]]
    /\ eps_calc heap os [1] = Ok (total1, cs1, h1) /\ eps_calc h1 os [1] = Ok (total2, cs2, h2)
    /\ nth 0 (nth 0 cs1 []) (RtoC 0) = (0, 1) /\ nth 0 (nth 0 cs2 []) (RtoC 0) = (0, 3)
    /\ Im (nth 0 total1 (RtoC 0)) = 4 /\ Im (nth 0 total2 (RtoC 0)) = 6
    /\ dget "C" (nth 0 heap []) = Some (VNum 1) /\ dget "C" (nth 0 h1 []) = Some (VNum 3).
Proof.
  set (d3 := dput "C" (VNum 3) e2_ex).
  assert (A : osc_e2 e2_ex 1 = Ok (0, 1)) by (apply e2_at; try reflexivity; lra).
  assert (B : osc_e2 d3 1 = Ok (0, 3)) by (apply e2_at; try reflexivity; lra).
  assert (C1 : forall d, component [d] (mkOsc "E2" (Some 0%nat) []) [1] = let! z := osc_e2 d 1 in Ok ([z], [d])).
  { intro d. unfold component. cbn [oname omat oargs method String.eqb Ascii.eqb Bool.eqb resolve bindR put_all fold_left nth set_nth fst snd each]. destruct (osc_e2 d 1); reflexivity. }
  assert (C2 : component [e2_ex] (mkOsc "E2" (Some 0%nat) [("C", VNum 3)]) [1] = Ok ([(0, 3) : C], [d3])).
  { unfold component. cbn [oname omat oargs method String.eqb Ascii.eqb Bool.eqb resolve bindR put_all fold_left nth set_nth fst snd each]. fold d3. rewrite B. reflexivity. }
  assert (C3 : component [d3] (mkOsc "E2" (Some 0%nat) [("C", VNum 3)]) [1] = Ok ([(0, 3) : C], [d3])).
  { unfold component. cbn [oname omat oargs method String.eqb Ascii.eqb Bool.eqb resolve bindR put_all fold_left nth set_nth fst snd each].
    change (dput "C" (VNum 3) d3) with d3. rewrite B. reflexivity. }
  set (os := [mkOsc "E2" (Some 0%nat) []; mkOsc "E2" (Some 0%nat) [("C", VNum 3)]]).
  assert (R1 : components [e2_ex] os [1] = Ok ([[(0, 1) : C]; [(0, 3) : C]], [d3])).
  { unfold os. cbn [components]. rewrite C1, A. cbn [bindR fst snd]. rewrite C2. reflexivity. }
  assert (R2 : components [d3] os [1] = Ok ([[(0, 3) : C]; [(0, 3) : C]], [d3])).
  { unfold os. cbn [components]. rewrite C1, B. cbn [bindR fst snd]. rewrite C3. reflexivity. }
  unfold eps_calc.
  do 2 eexists. do 6 eexists. split; [reflexivity|]. fold os. split; [rewrite R1; reflexivity|]. cbn [fst snd]. split; [rewrite R2; reflexivity|].
  cbn [fst snd nth length add_rows combine map repeat]. repeat split; cbn; lra.
Qed.
(** The arguments that the comments ask for do not suffice, and parameters in arguments only are refused, by the
    functions called directly. *)
Theorem C185_documented_refuted :
  osc_eid [("Gamma_Eg_ID", VNum 1); ("Alpha_Eg_ID", VNum 1); ("Eg_ED", VNum 1); ("Ec", VNum 2); ("D", VNum 1)] 1 = Err KeyError
  /\ osc_exciton [("Gamma_Ex0", VNum 1); ("Alpha_Ex0", VNum 1); ("A_Ex", VNum 1); ("G_3D", VNum 2); ("n", VNum 1)] 1 = Err KeyError
  /\ call_without "E2" [("Gamma_E2", VNum 1); ("Alpha_E2", VNum 0); ("E2", VNum 1); ("C", VNum 1)] [1] = Err TypeError
  /\ (exists z, component [] (mkOsc "E2" None [("Gamma_E2", VNum 1); ("Alpha_E2", VNum 0); ("E2", VNum 1); ("C", VNum 1)]) [1] = Ok ([z], [])).
Proof.
  repeat split; try reflexivity. eexists. unfold component.
  cbn [oname omat oargs method String.eqb Ascii.eqb Bool.eqb resolve bindR put_all fold_left nth set_nth fst snd each dput].
  rewrite (e2_at _ 1) by (try reflexivity; lra). reflexivity.
Qed.
(** An oscillator of an unknown name raises, and one without any parameters. *)
Theorem C185_unknown (heap : list dict) (o : oscillator) (pre os : list oscillator) (Es : list R) cs h2 :
  components heap pre Es = Ok (cs, h2) ->
  (~ In (oname o) ["E0andE0_d0"; "E1andE1_d1"; "E_ID"; "E0_Exciton"; "E2"; "Lorentz"; "Sellmeier"] ->
    eps_calc heap (pre ++ o :: os) Es = Err AttributeError)
  /\ (In (oname o) ["E0andE0_d0"; "E1andE1_d1"; "E_ID"; "E0_Exciton"; "E2"] -> omat o = None -> oargs o = [] ->
    eps_calc heap (pre ++ o :: os) Es = Err ValueError).
Proof.
  intro H.
  assert (G : forall e, component h2 o Es = Err e -> components heap (pre ++ o :: os) Es = Err e).
  { intros e He. revert heap cs h2 H He. induction pre as [|p pre IH]; intros heap cs h2 H He; cbn [components app] in *.
    - apply ok_inj_ in H. injection H as <- <-. rewrite He. reflexivity.
    - binds H. destruct x as [zs hh], x0 as [rs h4]. cbn [fst snd] in *. apply ok_inj_ in H. injection H as <- <-.
      rewrite E. cbn [bindR snd]. rewrite (IH _ _ _ E0 He). reflexivity. }
  unfold eps_calc. split.
  - intro N. rewrite (G AttributeError); [reflexivity|]. unfold component.
    replace (method (oname o)) with (@None (bool * (dict -> R -> res C))); [reflexivity|].
    unfold method. symmetry.
    repeat match goal with |- (if String.eqb ?a ?b then _ else _) = _ => destruct (String.eqb_spec a b) as [X|_]; [exfalso; apply N; rewrite X; cbn; tauto|] end.
    reflexivity.
  - intros I M A. rewrite (G ValueError); [reflexivity|]. unfold component.
    assert (exists f, method (oname o) = Some (true, f)) as [f ->].
    { cbn [In] in I. destruct I as [<-|[<-|[<-|[<-|[<-|[]]]]]]; eexists; reflexivity. }
    rewrite M, A. reflexivity.
Qed.
Example C185_total_ex : exists total cs h2,
  eps_calc [e2_ex; e2_ex] [mkOsc "E2" (Some 0%nat) []; mkOsc "E2" (Some 1%nat) [("C", VNum 3)]] [1] = Ok (total, cs, h2)
  /\ nth 0 total (RtoC 0) = (2, 4) /\ dget "C" (nth 0 h2 []) = Some (VNum 1).
Proof.
  set (d3 := dput "C" (VNum 3) e2_ex).
  assert (A : osc_e2 e2_ex 1 = Ok (0, 1)) by (apply e2_at; try reflexivity; lra).
  assert (B : osc_e2 d3 1 = Ok (0, 3)) by (apply e2_at; try reflexivity; lra).
  assert (Q : components [e2_ex; e2_ex] [mkOsc "E2" (Some 0%nat) []; mkOsc "E2" (Some 1%nat) [("C", VNum 3)]] [1] = Ok ([[(0, 1) : C]; [(0, 3) : C]], [e2_ex; d3])).
  { cbn [components]. unfold component at 1.
    cbn [oname omat oargs method String.eqb Ascii.eqb Bool.eqb resolve bindR put_all fold_left nth set_nth fst snd each]. rewrite A. cbn [bindR fst snd].
    unfold component at 1.
    cbn [oname omat oargs method String.eqb Ascii.eqb Bool.eqb resolve bindR put_all fold_left nth set_nth fst snd each]. fold d3. rewrite B. reflexivity. }
  unfold eps_calc. rewrite Q. cbn [bindR fst snd]. do 3 eexists. split; [reflexivity|].
  split; [|reflexivity]. apply injective_projections; cbn; lra.
Qed.
Close Scope string_scope.

(** Optical stacks: C47, C48, C83. *)
From Coq Require Import Reals Lra Psatz ZArith List Bool Arith Lia.
From Coquelicot Require Import Complex.
From Verif Require Import Common InterpModel InterpProps StackModel.
From Coq Require Import List.
Import ListNotations.
Open Scope R_scope.
Open Scope list_scope.

(** * Specification: a stack is a list of layers, each with its width *)
Notation alayer := (R * layer_in)%type.
Definition width_of (l : layer_in) : R :=
  match l with
  | LSolcore w _ _ | LModel w _ | LRaw w _ _ _ | LMixed w _ _ _ _ _ _ _ | LNoMixing w _ _ _ _ => w
  | LBad => 0
  end.
(** Data with an equal number of wavelengths, n and k values, two at least. *)
Definition well_formed (l : layer_in) : Prop :=
  match l with
  | LSolcore _ _ _ | LModel _ _ => True
  | LRaw _ xs ns ks | LMixed _ xs ns ks _ _ _ _ =>
      length ns = length xs /\ length ks = length xs /\ (2 <= length xs)%nat
  | _ => False
  end.
Definition index_in (n : nat) (i : Z) : Prop := (- Z.of_nat n <= i < Z.of_nat n)%Z.
Definition from_end (n : nat) (i : Z) : nat := Z.to_nat (if Z_lt_dec i 0 then i + Z.of_nat n else i)%Z.
Definition in_range (n : nat) (i : Z) : bool :=
  if Z_lt_dec i (Z.of_nat n) then if Z_le_dec (- Z.of_nat n) i then true else false else false.
Definition aremove (a : list alayer) (i : Z) : list alayer :=
  if in_range (length a) i
  then let k := from_end (length a) i in firstn k a ++ skipn (S k) a else a.
Definition put {A} (k : nat) (x : A) (l : list A) : list A := firstn k l ++ x :: skipn (S k) l.
Definition aswap (a : list alayer) (i j : Z) : list alayer :=
  if in_range (length a) i && in_range (length a) j
  then let p := from_end (length a) i in let q := from_end (length a) j in
       match nth_error a p, nth_error a q with
       | Some x, Some y => put q x (put p y a)
       | _, _ => a
       end
  else a.
Definition awidths (a : list alayer) (ws : list R) : list alayer :=
  if Nat.eq_dec (length ws) (length a) then combine ws (map snd a) else a.
Definition aadd (a : list alayer) (ls : list layer_in) : list alayer :=
  a ++ map (fun l => (width_of l, l)) ls.
Definition astep (a : list alayer) (o : sop) : list alayer :=
  match o with
  | OAdd ls => aadd a ls
  | ORemove i => aremove a i
  | OSwap i j => aswap a i j
  | OWidths ws => awidths a ws
  end.
Definition arun (a : list alayer) (h : list sop) : list alayer := fold_left astep h a.
Definition op_ok (o : sop) : Prop := match o with OAdd ls => Forall well_formed ls | _ => True end.

(** Removing and swapping do what their names say. *)
Lemma in_range_spec n i : in_range n i = true -> (from_end n i < n)%nat.
Proof.
  unfold in_range, from_end. destruct (Z_lt_dec i (Z.of_nat n)); [|discriminate].
  destruct (Z_le_dec _ _); [|discriminate]. intros _. destruct (Z_lt_dec i 0); lia.
Qed.
Lemma nth_error_put {A} (l : list A) k x j : (k < length l)%nat ->
  nth_error (put k x l) j = if Nat.eq_dec j k then Some x else nth_error l j.
Proof.
  intros Hk. unfold put. assert (F : length (firstn k l) = k) by (apply firstn_length_le; lia).
  destruct (Nat.eq_dec j k) as [->|N].
  - rewrite nth_error_app2 by lia. now rewrite F, Nat.sub_diag.
  - destruct (Nat.lt_ge_cases j k) as [H|H].
    + rewrite nth_error_app1 by lia. rewrite <- (firstn_skipn k l) at 2. rewrite nth_error_app1 by lia. reflexivity.
    + rewrite nth_error_app2 by lia. rewrite F. replace (j - k)%nat with (S (j - S k)) by lia. cbn [nth_error].
      rewrite <- (firstn_skipn (S k) l) at 2. rewrite nth_error_app2 by (rewrite firstn_length_le; lia).
      rewrite firstn_length_le by lia. reflexivity.
Qed.
Lemma put_length {A} (l : list A) k x : (k < length l)%nat -> length (put k x l) = length l.
Proof. intros H. unfold put. rewrite app_length, firstn_length_le by lia. cbn [length]. rewrite skipn_length. lia. Qed.
Theorem C47_swap_meaning : forall a i j, in_range (length a) i = true -> in_range (length a) j = true ->
  let p := from_end (length a) i in let q := from_end (length a) j in
  length (aswap a i j) = length a /\
  nth_error (aswap a i j) p = nth_error a q /\ nth_error (aswap a i j) q = nth_error a p /\
  forall k, k <> p -> k <> q -> nth_error (aswap a i j) k = nth_error a k.
Proof.
  intros a i j Hi Hj p q. unfold aswap. rewrite Hi, Hj. cbn [andb]. fold p q.
  assert (Lp : (p < length a)%nat) by now apply in_range_spec.
  assert (Lq : (q < length a)%nat) by now apply in_range_spec.
  destruct (nth_error a p) as [x|] eqn:Ep; [|apply nth_error_None in Ep; lia].
  destruct (nth_error a q) as [y|] eqn:Eq; [|apply nth_error_None in Eq; lia].
  assert (L : length (put p y a) = length a) by now apply put_length.
  split; [rewrite put_length; lia|]. repeat split.
  - rewrite nth_error_put by lia. destruct (Nat.eq_dec p q) as [E|N]; [rewrite E in Ep; congruence|].
    rewrite nth_error_put by lia. destruct (Nat.eq_dec p p); congruence.
  - rewrite nth_error_put by lia. destruct (Nat.eq_dec q q); congruence.
  - intros k N1 N2. rewrite nth_error_put by lia. destruct (Nat.eq_dec k q); [contradiction|].
    rewrite nth_error_put by lia. destruct (Nat.eq_dec k p); [contradiction|reflexivity].
Qed.

(** * What the stack stores for a layer *)
Definition model_of (l : layer_in) : option dmodel :=
  match l with LModel _ m | LMixed _ _ _ _ m _ _ _ | LNoMixing _ _ _ _ m => Some m | _ => None end.
Definition otable (b : bool) (xs ys : list R) : table1d :=
  {| t_x := map nm (orient b xs); t_y := orient b ys; t_kind := Linear; t_bounds_error := false;
     t_fill := Some (last_or (orient b ys)) |}.
Definition n_of (l : layer_in) : ndata :=
  match l with
  | LSolcore _ n _ => NFun n
  | LModel _ m => NOfModel m
  | LRaw _ xs ns _ => NTable (otable (descending xs) xs ns)
  | LMixed _ xs ns _ _ c w d => NMix (orient (descending xs) xs) (orient (descending xs) ns) (nm c) (nm w) d
  | _ => NFun (fun _ => 0)
  end.
Definition k_of (l : layer_in) : kdata :=
  match l with
  | LSolcore _ _ k => KFun k
  | LModel _ _ => KZero
  | LRaw _ xs _ ks => KTable (otable (descending xs) xs ks)
  | LMixed _ xs _ ks _ _ _ _ => KMix (orient (descending xs) xs) (orient (descending xs) ks)
  | _ => KZero
  end.
Definition holds (s : stack) (a : list alayer) : Prop :=
  st_widths s = map fst a /\ st_models s = map (fun p => model_of (snd p)) a /\
  st_n s = map (fun p => n_of (snd p)) a /\ st_k s = map (fun p => k_of (snd p)) a /\
  st_num s = length a.
Lemma orient_length {A} b (l : list A) : length (orient b l) = length l.
Proof. destruct b; [apply rev_length|reflexivity]. Qed.
Lemma table_ok b xs ys : length ys = length xs -> (2 <= length xs)%nat ->
  table (orient b xs) (orient b ys) (last_or (orient b ys)) = Ok (otable b xs ys).
Proof.
  intros H1 H2. unfold table, interp1d. rewrite map_length, !orient_length, H1, Nat.eqb_refl. cbn [negb].
  destruct (Nat.ltb_spec (length xs) 2); [lia|reflexivity].
Qed.
Lemma add_one_holds s a l : holds s a -> well_formed l ->
  exists s', add_one s l = (s', true) /\ holds s' (a ++ [(width_of l, l)]).
Proof.
  intros (H1 & H2 & H3 & H4 & H5) W. unfold holds.
  assert (X : forall m n k,
    let s' := count (push_k (push_n (push_model (push_width (remember s l) (width_of l)) m) n) k) in
    m = model_of l -> n = n_of l -> k = k_of l ->
    st_widths s' = map fst (a ++ [(width_of l, l)]) /\
    st_models s' = map (fun p => model_of (snd p)) (a ++ [(width_of l, l)]) /\
    st_n s' = map (fun p => n_of (snd p)) (a ++ [(width_of l, l)]) /\
    st_k s' = map (fun p => k_of (snd p)) (a ++ [(width_of l, l)]) /\
    st_num s' = length (a ++ [(width_of l, l)])).
  { intros m n k s' -> -> ->. unfold s'. cbn. rewrite !map_app, H1, H2, H3, H4, H5, app_length. cbn.
    repeat split; lia. }
  destruct l as [w n k|w m|w xs ns ks|w xs ns ks m c wd d|w xs ns ks m|]; cbn [well_formed] in W; try contradiction.
  - eexists. split; [reflexivity|]. now apply X.
  - eexists. split; [reflexivity|]. now apply X.
  - destruct W as (W1 & W2 & W3). cbn [add_one]. destruct xs as [|x0 xs]; [cbn in W3; lia|].
    set (l := x0 :: xs) in *. rewrite (table_ok _ l ns W1 W3), (table_ok _ l ks W2 W3).
    eexists. split; [reflexivity|]. now apply X.
  - destruct W as (W1 & W2 & W3). cbn [add_one]. destruct xs as [|x0 xs]; [cbn in W3; lia|].
    eexists. split; [reflexivity|]. now apply X.
Qed.
Lemma add_layers_holds ls : forall s a, holds s a -> Forall well_formed ls -> holds (add_layers s ls) (aadd a ls).
Proof.
  induction ls as [|l ls IH]; intros s a H F.
  - unfold aadd. cbn. now rewrite app_nil_r.
  - destruct (add_one_holds s a l H (Forall_inv F)) as (s' & E & H').
    cbn [add_layers]. rewrite E. specialize (IH s' _ H' (Forall_inv_tail F)).
    unfold aadd in *. cbn [map]. now rewrite <- app_assoc in IH.
Qed.
Lemma pos_spec n i : pos n i = if in_range n i then Some (from_end n i) else None.
Proof.
  unfold pos, in_range, from_end. destruct (Z.ltb_spec i 0); destruct (Z_lt_dec i 0); try lia.
  - destruct (Z_lt_dec i (Z.of_nat n)); [|lia]. destruct (Z_le_dec _ _).
    + destruct (Z.leb_spec 0 (i + Z.of_nat n)); [|lia]. destruct (Z.ltb_spec (i + Z.of_nat n) (Z.of_nat n)); [reflexivity|lia].
    + destruct (Z.leb_spec 0 (i + Z.of_nat n)); [lia|reflexivity].
  - destruct (Z_lt_dec i (Z.of_nat n)).
    + destruct (Z_le_dec _ _); [|lia]. destruct (Z.leb_spec 0 i); [|lia].
      destruct (Z.ltb_spec i (Z.of_nat n)); [reflexivity|lia].
    + destruct (Z.leb_spec 0 i); [|lia]. destruct (Z.ltb_spec i (Z.of_nat n)); [lia|reflexivity].
Qed.
Lemma pop_map {A B} (f : A -> B) i l : pop i (map f l) = match pop i l with Ok r => Ok (map f r) | Err e => Err e end.
Proof.
  unfold pop. rewrite map_length. destruct (pos (length l) i) as [k|]; [|reflexivity].
  unfold drop_at. now rewrite map_app, firstn_map, skipn_map.
Qed.
Lemma set_at_map {A B} (f : A -> B) k x l : set_at k (f x) (map f l) = map f (set_at k x l).
Proof. unfold set_at. rewrite map_app. cbn [map]. now rewrite firstn_map, skipn_map. Qed.
Lemma swap_map {A B} (f : A -> B) i j l :
  swap i j (map f l) = match swap i j l with Ok r => Ok (map f r) | Err e => Err e end.
Proof.
  unfold swap. rewrite map_length. destruct (pos (length l) i) as [a|]; [|reflexivity].
  destruct (pos (length l) j) as [b|]; [|reflexivity].
  rewrite !nth_error_map. destruct (nth_error l a) as [x|]; [|reflexivity].
  destruct (nth_error l b) as [y|]; [|reflexivity]. cbn [option_map]. now rewrite !set_at_map.
Qed.
Lemma step_holds s a o : holds s a -> op_ok o -> holds (sstep s o) (astep a o).
Proof.
  intros H W. destruct o as [ls|i|i j|ws]; cbn [sstep astep op_ok] in *.
  - now apply add_layers_holds.
  - destruct H as (H1 & H2 & H3 & H4 & H5). unfold remove_layer, aremove.
    rewrite H1, H2, H3, H4, H5, !pop_map. unfold pop. rewrite pos_spec.
    destruct (in_range (length a) i) eqn:Ri.
    + assert (Li : (i < Z.of_nat (length a))%Z) by (unfold in_range in Ri; destruct (Z_lt_dec i (Z.of_nat (length a))); [lia|discriminate]).
      destruct (Z.leb_spec (Z.of_nat (length a)) i); [lia|]. apply in_range_spec in Ri.
      cbn [fst]. unfold holds, drop_at. cbn [st_widths st_models st_n st_k st_num]. repeat split.
      rewrite app_length, firstn_length_le, skipn_length by lia. lia.
    + destruct (Z.of_nat (length a) <=? i)%Z; cbn; repeat split; auto.
  - destruct H as (H1 & H2 & H3 & H4 & H5). unfold swap_layers, aswap.
    rewrite H1, H2, H3, H4, H5, !swap_map. unfold swap. rewrite !pos_spec.
    destruct (in_range (length a) i) eqn:Ri.
    + destruct (in_range (length a) j) eqn:Rj.
      * assert (Li : (i < Z.of_nat (length a))%Z) by (unfold in_range in Ri; destruct (Z_lt_dec i (Z.of_nat (length a))); [lia|discriminate]).
        assert (Lj : (j < Z.of_nat (length a))%Z) by (unfold in_range in Rj; destruct (Z_lt_dec j (Z.of_nat (length a))); [lia|discriminate]).
        destruct (Z.leb_spec (Z.of_nat (length a)) i); [lia|]. destruct (Z.leb_spec (Z.of_nat (length a)) j); [lia|].
        cbn [orb andb]. apply in_range_spec in Ri, Rj.
        destruct (nth_error a (from_end (length a) i)) as [x|] eqn:Ex; [|apply nth_error_None in Ex; lia].
        destruct (nth_error a (from_end (length a) j)) as [y|] eqn:Ey; [|apply nth_error_None in Ey; lia].
        cbn [fst]. unfold holds. cbn [st_widths st_models st_n st_k st_num].
        change (set_at (from_end (length a) j) x (set_at (from_end (length a) i) y a))
          with (put (from_end (length a) j) x (put (from_end (length a) i) y a)).
        repeat split. rewrite !put_length; auto. rewrite put_length; auto.
      * cbn [andb]. destruct ((Z.of_nat (length a) <=? i)%Z || (Z.of_nat (length a) <=? j)%Z); cbn; repeat split; auto.
    + cbn [andb]. destruct ((Z.of_nat (length a) <=? i)%Z || (Z.of_nat (length a) <=? j)%Z); cbn; repeat split; auto.
  - destruct H as (H1 & H2 & H3 & H4 & H5). unfold set_widths, awidths. rewrite H5.
    destruct (Nat.eqb_spec (length ws) (length a)) as [E|E]; destruct (Nat.eq_dec (length ws) (length a)) as [E'|E'];
      try contradiction; [|repeat split; auto].
    unfold holds. cbn [fst st_widths st_models st_n st_k st_num].
    assert (Q : map fst (combine ws (map snd a)) = ws /\ map snd (combine ws (map snd a)) = map snd a).
    { clear - E. revert a E. induction ws as [|w ws IH]; intros [|x a] E; try discriminate; [auto|].
      destruct (IH a ltac:(now injection E)) as [Q1 Q2]. cbn. split; f_equal; assumption. }
    destruct Q as [Q1 Q2]. rewrite Q1.
    assert (T : forall {B} (f : layer_in -> B), map (fun p => f (snd p)) (combine ws (map snd a)) = map (fun p => f (snd p)) a).
    { intros B f. rewrite <- (map_map snd f), Q2, map_map. reflexivity. }
    rewrite !T, combine_length, map_length. repeat split; auto. lia.
Qed.
(** Whatever is done to a stack of well-formed layers, the object holds exactly the layers of
    the specification, each with its width and its own data. Missing: layers whose
    construction fails half way. *)
Theorem C47_refines_partial : forall h, Forall op_ok h ->
  let s := srun empty_stack h in let a := arun [] h in
  holds s a /\
  length (st_widths s) = st_num s /\ length (st_n s) = st_num s /\ length (st_k s) = st_num s /\
  length (st_models s) = st_num s /\
  (forall o, length (get_widths o s) = (length a + 2 + if o_noback o then 1 else 0)%nat) /\
  (forall o wl l, get_indices o s wl = Ok l -> length l = length (get_widths o s)).
Proof.
  intros h F s a.
  assert (H : holds s a).
  { unfold s, a, srun, arun. assert (H0 : holds empty_stack []) by (repeat split; reflexivity).
    revert H0. generalize empty_stack, (@nil alayer). induction h as [|o h IH]; intros s0 a0 H0; [exact H0|].
    cbn [fold_left]. apply IH; [exact (Forall_inv_tail F)|]. apply step_holds; [exact H0|exact (Forall_inv F)]. }
  split; [exact H|]. destruct H as (H1 & H2 & H3 & H4 & H5).
  rewrite H1, H2, H3, H4, H5, !map_length. repeat split; auto.
  - intros o. unfold get_widths. rewrite H1. destruct (o_noback o); rewrite !app_length, !map_length; cbn; lia.
  - intros o wl l E. unfold get_indices in E. assert (Hn : st_num s = length a) by exact H5.
    assert (Q : forall x ns ks num out, indices_loop s x ns ks num = Ok out -> length out = num).
    { intros x ns ks num. revert ns ks. induction num as [|num IH]; intros ns ks out E'; cbn in E'.
      - injection E' as <-. reflexivity.
      - destruct ns as [|n ns]; [discriminate|]. destruct ks as [|k ks]; [discriminate|].
        destruct (eval_n s n x); [|discriminate]. destruct (eval_k k x); [|discriminate]. cbn in E'.
        destruct (indices_loop s x ns ks num) eqn:E2; [|discriminate]. injection E' as <-. cbn. f_equal. now apply (IH ns ks). }
    destruct (indices_loop s (nm wl) (st_n s) (st_k s) (st_num s)) as [out|] eqn:E1; [|discriminate].
    apply Q in E1. rewrite ?Hn in E1. cbn [bindR] in E. unfold get_widths. rewrite H1.
    destruct (o_noback o).
    + destruct (rev (st_n s)) as [|n r]; [discriminate|]. destruct (eval_n s n (nm wl)); [|discriminate].
      cbn [bindR] in E. destruct (k_absorbing s (nm wl)); [|discriminate]. cbn [bindR] in E. injection E as <-.
      cbn [app]; cbn [length]. rewrite !app_length, !map_length. cbn [length]. lia.
    + injection E as <-. cbn [app]; cbn [length]. rewrite !app_length, !map_length. cbn [length]. lia.
Qed.
(** A layer given with a model but without the mixing data is swallowed by the exception
    handler after its width was stored. *)
Theorem C47_failed_layer_refuted : exists ls o wl l,
  let s := add_layers empty_stack ls in
  length (st_widths s) <> st_num s /\ get_indices o s wl = Ok l /\ length l <> length (get_widths o s).
Proof.
  exists [LNoMixing 100 [400; 500] [2; 2] [0; 0] (fun _ => RtoC 3)], (Outer None None false), 450.
  eexists. cbn. split; [discriminate|]. split; [reflexivity|]. discriminate.
Qed.
(** The remembered input layers do not follow removals. *)
Theorem C47_layers_list_refuted : exists h, Forall op_ok h /\
  length (st_layers (srun empty_stack h)) <> st_num (srun empty_stack h).
Proof.
  exists [OAdd [LModel 100 (fun _ => RtoC 3); LModel 50 (fun _ => RtoC 2)]; ORemove 0]. split.
  - repeat (apply Forall_cons; [cbn; repeat constructor|]). constructor.
  - discriminate.
Qed.
Example C47_example : Forall op_ok
  [OAdd [LModel 100 (fun _ => RtoC 3); LRaw 50 [500; 400] [2; 3] [0; 1]]; OSwap 0 (-1); OWidths [10; 20]; ORemove (-2)].
Proof. repeat (apply Forall_cons; [cbn; repeat (constructor; cbn; auto)|]). constructor. Qed.

(** * C48 *)
(** The index of a layer by itself. *)
Definition own (l : layer_in) (x : R) : C :=
  match l with
  | LSolcore _ n k => (n x + k x * Ci)%C
  | LModel _ m => m x
  | LRaw _ xs ns ks =>
      let b := descending xs in (eval_table (otable b xs ns) x + eval_table (otable b xs ks) x * Ci)%C
  | LMixed _ xs ns ks m c w d =>
      let b := descending xs in let u := mix (nm c) (nm w) d x in
      (m x * u + (1 - u)%R * eval_table (otable b xs ns) x + eval_table (otable b xs ks) x * Ci)%C
  | _ => RtoC 0
  end.
Definition mixed (l : layer_in) : Prop := match l with LMixed _ _ _ _ _ _ _ _ => True | _ => False end.
(** As long as only the last layer, if any, mixes data with a model, every layer shows its own
    index, in the order of the specification. *)
Lemma eval_own s a0 w l x : holds s (a0 ++ [(w, l)]) ->
  forall p, In p (a0 ++ [(w, l)]) -> well_formed (snd p) -> (mixed (snd p) -> snd p = l) ->
  exists y z, eval_n s (n_of (snd p)) x = Ok y /\ eval_k (k_of (snd p)) x = Ok z /\
             (y + z * Ci)%C = own (snd p) x.
Proof.
  intros H p Hp W Hm. destruct H as (_ & H2 & _).
  destruct p as [w' [v n k|v m|v xs ns ks|v xs ns ks m c wd d|v xs ns ks m|]]; cbn [snd well_formed] in *; try contradiction.
  - eexists. eexists. split; [reflexivity|]. split; [reflexivity|]. reflexivity.
  - eexists. eexists. split; [reflexivity|]. split; [reflexivity|]. cbn [own]. ring.
  - eexists. eexists. split; [reflexivity|]. split; [reflexivity|]. reflexivity.
  - destruct W as (W1 & W2 & W3). specialize (Hm I). subst l.
    cbn [n_of k_of eval_n eval_k]. rewrite H2, map_app, rev_app_distr. cbn [map rev app snd model_of].
    rewrite (table_ok _ xs ns W1 W3), (table_ok _ xs ks W2 W3). cbn [bindR].
    eexists. eexists. split; [reflexivity|]. split; [reflexivity|]. reflexivity.
Qed.
Lemma eval_own' s a x : holds s a -> Forall (fun p => well_formed (snd p)) a ->
  Forall (fun p => ~ mixed (snd p)) (removelast a) ->
  forall p, In p a -> exists y z, eval_n s (n_of (snd p)) x = Ok y /\ eval_k (k_of (snd p)) x = Ok z /\
             (y + z * Ci)%C = own (snd p) x.
Proof.
  intros H W M p Hp. destruct a as [|u a]; [destruct Hp|].
  destruct (@exists_last _ (u :: a)) as (a0 & [w l] & E); [discriminate|]. rewrite E in *.
  rewrite removelast_last in M. rewrite Forall_forall in W, M.
  apply (eval_own s a0 w l x H p Hp (W p Hp)).
  intros Hm. apply in_app_or in Hp. destruct Hp as [Hp|[<-|[]]]; [|reflexivity]. destruct (M p Hp Hm).
Qed.
Lemma loop_own s x : forall a : list alayer, (forall p, In p a -> exists y z, eval_n s (n_of (snd p)) x = Ok y /\
    eval_k (k_of (snd p)) x = Ok z /\ (y + z * Ci)%C = own (snd p) x) ->
  indices_loop s x (map (fun p => n_of (snd p)) a) (map (fun p => k_of (snd p)) a) (length a)
  = Ok (map (fun p => own (snd p) x) a).
Proof.
  induction a as [|p a IH]; intros H; [reflexivity|].
  destruct (H p (or_introl eq_refl)) as (y & z & E1 & E2 & E3).
  cbn [map length indices_loop]. rewrite E1. cbn [bindR]. rewrite E2. cbn [bindR].
  rewrite IH by (intros q Hq; apply H; now right). cbn [bindR]. now rewrite E3.
Qed.
Theorem C48_own_index_partial : forall h o wl, Forall op_ok h -> o_noback o = false ->
  let a := arun [] h in
  Forall (fun p => well_formed (snd p)) a -> Forall (fun p => ~ mixed (snd p)) (removelast a) ->
  get_indices o (srun empty_stack h) wl
  = Ok ([n_front o (nm wl)] ++ map (fun p => own (snd p) (nm wl)) a ++ [n_back o (nm wl)]).
Proof.
  intros h o wl F Ho a W M. destruct (C47_refines_partial h F) as (H & _). fold a in H.
  set (s := srun empty_stack h) in *. unfold get_indices. destruct H as (H1 & H2 & H3 & H4 & H5).
  rewrite H3, H4, H5, loop_own; [cbn [bindR]; rewrite Ho; reflexivity|].
  apply (eval_own' s a); auto. repeat split; auto.
Qed.
(** The absorbing layer behind the stack takes its n from the last layer. *)
Theorem C48_absorber_partial : forall h wl o w l a0, Forall op_ok h -> o_noback o = true ->
  arun [] h = a0 ++ [(w, l)] ->
  Forall (fun p => well_formed (snd p)) (arun [] h) -> Forall (fun p => ~ mixed (snd p)) a0 ->
  exists (n : C) (k kk : R), get_indices o (srun empty_stack h) wl
    = Ok ([n_front o (nm wl)] ++ map (fun p => own (snd p) (nm wl)) (a0 ++ [(w, l)])
          ++ [(n + kk * Ci)%C; n_back o (nm wl)]) /\
    (n + k * Ci)%C = own l (nm wl) /\ k <= kk /\ wl / 10 ^ 6 <= kk.
Proof.
  intros h wl o w l a0 F Ho Ea W M. destruct (C47_refines_partial h F) as (H & _). rewrite Ea in *.
  set (s := srun empty_stack h) in *. unfold get_indices.
  assert (Q : forall p, In p (a0 ++ [(w, l)]) -> exists y z, eval_n s (n_of (snd p)) (nm wl) = Ok y /\
     eval_k (k_of (snd p)) (nm wl) = Ok z /\ (y + z * Ci)%C = own (snd p) (nm wl)).
  { apply (eval_own' s _ (nm wl) H W). now rewrite removelast_last. }
  destruct (Q (w, l)) as (y & z & E1 & E2 & E3); [apply in_or_app; right; left; reflexivity|].
  destruct H as (H1 & H2 & H3 & H4 & H5).
  exists y, z, (Rmax (nm wl / (/ 10 ^ 3)) z).
  unfold k_absorbing. rewrite H3, H4, H5, loop_own by exact Q. cbn [bindR]. rewrite Ho.
  rewrite !map_app, !rev_app_distr. cbn [map rev app snd]. cbn [snd] in E1, E2, E3. rewrite E1. cbn [bindR].
  rewrite E2. cbn [bindR]. split; [reflexivity|]. split; [exact E3|]. split; [apply Rmax_r|].
  apply Rle_trans with (2 := Rmax_l _ _). unfold nm. right. field.
Qed.
(** Adding any other modelled layer gives the mixed layer that layer's model, and adding an
    ordinary layer makes its index unreadable. *)
Theorem C48_late_binding_refuted : exists l l1 l2 o wl i1 i2,
  well_formed l /\ well_formed l1 /\ well_formed l2 /\
  get_indices o (add_layers empty_stack [l]) wl = Ok i1 /\
  get_indices o (add_layers (add_layers empty_stack [l]) [l1]) wl = Ok i2 /\
  nth 1 i1 (RtoC 0) <> nth 1 i2 (RtoC 0) /\
  get_indices o (add_layers (add_layers empty_stack [l]) [l2]) wl = Err AttributeError.
Proof.
  exists (LMixed 100 [400; 500] [2; 2] [0; 0] (fun _ => RtoC 3) 450 10 false), (LModel 50 (fun _ => RtoC 5)),
    (LSolcore 50 (fun _ => 1) (fun _ => 0)), (Outer None None false), 450.
  eexists. eexists. split; [cbn; lia|]. split; [exact I|]. split; [exact I|].
  assert (D : descending [400; 500] = false) by (unfold descending; cbn; destruct (Rlt_dec 500 400); [lra|reflexivity]).
  unfold add_layers, add_one. rewrite D. cbn [orient].
  split; [cbn; reflexivity|]. split; [cbn; reflexivity|]. split; [|cbn; reflexivity].
  cbn [nth app]. intros E. apply (f_equal fst) in E. cbn in E.
  set (e := eval_table _ _) in E. clearbody e.
  unfold mix in E. set (u := exp (- (nm 450 - nm 450) / nm 10)) in E.
  assert (U : 0 < u) by apply exp_pos. clearbody u.
  assert (V : 0 < / (1 + u)) by (apply Rinv_0_lt_compat; lra).
  unfold Rdiv in E. nra.
Qed.
(** The cache is transparent for a function that always gives the same answer, and otherwise
    keeps the first answer for good. *)
Theorem C48_cache_partial : forall (E K V : Type) (keq : forall a b : K, {a = b} + {a <> b}) (f : E -> K -> V) h,
  (forall e e' k, f e k = f e' k) -> calls keq f [] h = map (fun ek => f (fst ek) (snd ek)) h.
Proof.
  intros E K V keq f h Hf.
  assert (G : forall c, (forall k v, lookup keq k c = Some v -> forall e, v = f e k) ->
    calls keq f c h = map (fun ek => f (fst ek) (snd ek)) h).
  { induction h as [|[e k] h IH]; intros c Hc; [reflexivity|]. cbn [calls map fst snd]. unfold cached.
    destruct (lookup keq k c) as [v|] eqn:L; cbn [fst snd].
    - f_equal; [now apply Hc|]. now apply IH.
    - f_equal. apply IH. intros k' v' H' e'. cbn in H'. destruct (keq k k') as [<-|N]; [|now apply Hc].
      injection H' as <-. apply Hf. }
  apply G. intros k v. discriminate.
Qed.
Theorem C48_cache_first : forall (E K V : Type) (keq : forall a b : K, {a = b} + {a <> b}) (f : E -> K -> V) h1 e0 k0 h2 i,
  (forall ek, In ek h1 -> snd ek <> k0) -> nth_error h2 i = Some (e0, k0) ->
  forall e, nth_error (calls keq f [] (h1 ++ (e, k0) :: h2)) (length h1 + 1 + i) = Some (f e k0).
Proof.
  intros E K V keq f h1 e0 k0 h2 i H1 H2 e.
  assert (A : forall h c v j e1, lookup keq k0 c = Some v -> nth_error h j = Some (e1, k0) ->
            nth_error (calls keq f c h) j = Some v).
  { induction h as [|[a k] h IH]; intros c v j e1 L N; [destruct j; discriminate|]. cbn [calls].
    destruct j as [|j]; cbn in N |- *.
    - injection N as -> ->. unfold cached. now rewrite L.
    - apply (IH _ v j e1); [|exact N]. unfold cached. destruct (lookup keq k c) as [w|] eqn:Lk; [exact L|].
      cbn. destruct (keq k k0) as [->|]; [congruence|exact L]. }
  assert (B : forall h c, (forall ek, In ek h -> snd ek <> k0) -> lookup keq k0 c = None ->
            nth_error (calls keq f c (h ++ (e, k0) :: h2)) (length h + 1 + i) = Some (f e k0)).
  { induction h as [|[a k] h IH]; intros c Hn L.
    - cbn [app calls length Nat.add]. cbn [nth_error]. unfold cached. rewrite L. cbn [snd].
      apply (A h2 _ _ i e0); [|exact H2]. cbn. destruct (keq k0 k0); congruence.
    - cbn [app calls length Nat.add nth_error]. apply IH; [intros ek He; apply Hn; now right|].
      assert (Nk : k <> k0) by (apply (Hn (a, k)); now left).
      unfold cached. destruct (lookup keq k c); [exact L|]. cbn. destruct (keq k k0); congruence. }
  apply B; [exact H1|reflexivity].
Qed.
Example C48_example : let h := [OAdd [LModel 100 (fun _ => RtoC 3); LMixed 100 [400; 500] [2; 2] [0; 0] (fun _ => RtoC 3) 450 10 false]] in
  Forall op_ok h /\ Forall (fun p => well_formed (snd p)) (arun [] h) /\
  Forall (fun p => ~ mixed (snd p)) (removelast (arun [] h)).
Proof.
  cbn. split; [|split]; repeat (apply Forall_cons; [cbn; auto|]); try constructor.
Qed.

(** Tabulated data come back at their own wavelengths, given in rising or falling order;
    everywhere outside the table the values of the longest wavelength are used, also below the
    shortest one. *)
Lemma last_nth' (l : list R) : last l 0 = at_ l (length l - 1).
Proof.
  induction l as [|a [|b l] IH]; try reflexivity. cbn [length] in *.
  change (last (a :: b :: l) 0) with (last (b :: l) 0). rewrite IH. cbn [length].
  replace (S (S (length l)) - 1)%nat with (S (S (length l) - 1)) by lia. reflexivity.
Qed.
Lemma nm_lt a b : a < b -> nm a < nm b.
Proof. intros H. unfold nm. apply Rmult_lt_compat_r; [apply Rinv_0_lt_compat, pow_lt; lra|exact H]. Qed.
Lemma at_map_nm l i : (i < length l)%nat -> at_ (map nm l) i = nm (at_ l i).
Proof. intros Hi. rewrite (nth_indep _ 0 (nm 0)) by (rewrite map_length; lia). apply map_nth. Qed.
Lemma nm_increasing l : increasing l -> increasing (map nm l).
Proof.
  intros H i j Hij. rewrite map_length in Hij. rewrite !at_map_nm by lia. apply nm_lt, H. lia.
Qed.
Lemma table_node xs ys i fill : increasing xs -> length ys = length xs -> (2 <= length xs)%nat -> (i < length xs)%nat ->
  eval_table {| t_x := map nm xs; t_y := ys; t_kind := Linear; t_bounds_error := false; t_fill := fill |} (nm (at_ xs i))
  = at_ ys i.
Proof.
  intros Hx Hl H2 Hi. set (X := map nm xs). assert (HX : increasing X) by now apply nm_increasing.
  assert (LX : length X = length xs) by apply map_length.
  assert (Ei : nm (at_ xs i) = at_ X i) by (unfold X; rewrite at_map_nm; auto). rewrite Ei.
  unfold eval_table, below, above. cbn [t_x t_y t_fill].
  assert (B1 : at_ X 0 <= at_ X i) by (apply increasing_le; [exact HX|lia]).
  assert (B2 : at_ X i <= at_ X (length X - 1)) by (apply increasing_le; [exact HX|lia]).
  destruct (Rlt_dec (at_ X i) (at_ X 0)); [lra|]. destruct (Rlt_dec (at_ X (length X - 1)) (at_ X i)); [lra|]. cbn [orb].
  destruct (Nat.eq_dec (S i) (length X)) as [E|E].
  - assert (L : at_ X (i - 1) < at_ X i) by (apply HX; lia).
    rewrite (call_linear_cell X ys _ (i - 1) HX) by (replace (S (i - 1)) with i by lia; (lia || lra)).
    replace (S (i - 1)) with i by lia. field. lra.
  - assert (L : at_ X i < at_ X (S i)) by (apply HX; lia).
    rewrite (call_linear_cell X ys _ i HX) by (try lia; lra). field. lra.
Qed.
Lemma descending_rising xs : (2 <= length xs)%nat -> increasing xs -> descending xs = false.
Proof.
  intros H2 Hx. unfold descending. destruct xs as [|x xs]; [cbn in H2; lia|]. destruct (Rlt_dec _ _) as [L|]; [|reflexivity].
  cbn [length] in H2. assert (Rg : (0 < length xs < length (x :: xs))%nat) by (cbn [length]; lia).
  assert (Q := Hx 0%nat (length xs) Rg). change (at_ (x :: xs) 0) with x in Q.
  rewrite (last_nth' (x :: xs)) in L. cbn [length hd] in L. rewrite Nat.sub_succ, Nat.sub_0_r in L.
  destruct (Rlt_asym _ _ L Q).
Qed.
Lemma descending_falling xs : (2 <= length xs)%nat -> increasing (rev xs) -> descending xs = true.
Proof.
  intros H2 Hx. unfold descending. destruct (Rlt_dec _ _) as [L|N]; [reflexivity|]. exfalso. apply N.
  assert (Q := Hx 0%nat (length xs - 1)%nat ltac:(rewrite rev_length; lia)).
  rewrite !rev_nth in Q by lia. rewrite last_nth'.
  replace (length xs - S (length xs - 1))%nat with 0%nat in Q by lia.
  replace (length xs - 1)%nat with (length xs - 1)%nat in Q by lia.
  destruct xs; [cbn in H2; lia|]. exact Q.
Qed.
Theorem C48_raw_data : forall w xs ns ks, well_formed (LRaw w xs ns ks) ->
  increasing xs \/ increasing (rev xs) ->
  (forall i, (i < length xs)%nat ->
     own (LRaw w xs ns ks) (nm (at_ xs i)) = (at_ ns i + at_ ks i * Ci)%C) /\
  (forall v m, (m < length xs)%nat -> (forall i, (i < length xs)%nat -> at_ xs i <= at_ xs m) ->
     (forall i, (i < length xs)%nat -> v < at_ xs i) \/ (forall i, (i < length xs)%nat -> at_ xs i < v) ->
     own (LRaw w xs ns ks) (nm v) = (at_ ns m + at_ ks m * Ci)%C).
Proof.
  intros w xs ns ks (W1 & W2 & W3) Hm.
  assert (G : exists b, descending xs = b /\ increasing (orient b xs)).
  { destruct Hm as [H|H].
    - exists false. split; [now apply descending_rising|exact H].
    - exists true. split; [now apply descending_falling|exact H]. }
  destruct G as (b & Eb & Hb). cbn [own]. rewrite Eb. clear Hm Eb.
  assert (O : forall (l : list R) i, length l = length xs -> (i < length xs)%nat ->
            exists j, (j < length xs)%nat /\ (forall l' : list R, length l' = length xs -> at_ (orient b l') j = at_ l' i)).
  { intros l i Hl Hi. destruct b; cbn [orient].
    - exists (length xs - S i)%nat. split; [lia|]. intros l' Hl'. rewrite rev_nth by lia. f_equal. lia.
    - exists i. split; auto. }
  split.
  - intros i Hi. destruct (O xs i eq_refl Hi) as (j & Hj & Hat).
    rewrite <- (Hat xs eq_refl). unfold otable.
    rewrite !table_node; rewrite ?orient_length; auto. now rewrite (Hat ns W1), (Hat ks W2).
  - intros v m Hmlt Hmax Hv.
    assert (Lst : forall l', length l' = length xs -> last_or (orient b l') = at_ l' m).
    { intros l' Hl'. destruct (O xs m eq_refl Hmlt) as (j & Hj & Hat).
      assert (j = length xs - 1)%nat.
      { destruct (Nat.eq_dec j (length xs - 1)) as [|N]; [assumption|]. exfalso.
        assert (Q := Hb j (length xs - 1)%nat ltac:(rewrite orient_length; lia)).
        rewrite (Hat xs eq_refl) in Q.
        assert (K : exists i, (i < length xs)%nat /\ at_ (orient b xs) (length xs - 1) = at_ xs i).
        { destruct b; cbn [orient]; [exists 0%nat|exists (length xs - 1)%nat]; (split; [lia|]).
          - rewrite rev_nth by lia. f_equal. lia.
          - reflexivity. }
        destruct K as (i & Ki & K). rewrite K in Q. specialize (Hmax i Ki). lra. }
      rewrite <- (Hat l' Hl'). subst j. unfold last_or. rewrite last_nth', orient_length, Hl'. reflexivity. }
    assert (Out : forall ys, length ys = length xs -> eval_table (otable b xs ys) (nm v) = at_ ys m).
    { intros ys Hy. unfold eval_table, otable, below, above. cbn [t_x t_y t_fill].
      rewrite map_length, orient_length, !at_map_nm by (rewrite orient_length; lia).
      assert (K : forall j, (j < length xs)%nat -> exists i, (i < length xs)%nat /\ at_ (orient b xs) j = at_ xs i).
      { intros j Hj. destruct b; cbn [orient]; [exists (length xs - S j)%nat|exists j]; (split; [lia|]).
        - rewrite rev_nth by lia. reflexivity.
        - reflexivity. }
      destruct (K 0%nat ltac:(lia)) as (i0 & Hi0 & ->). destruct (K (length xs - 1)%nat ltac:(lia)) as (i1 & Hi1 & ->).
      destruct Hv as [Hv|Hv].
      - destruct (Rlt_dec (nm v) (nm (at_ xs i0))) as [|N]; [cbn [orb]; now apply Lst|].
        destruct N. now apply nm_lt, Hv.
      - destruct (Rlt_dec (nm (at_ xs i1)) (nm v)) as [|N]; [rewrite orb_true_r; now apply Lst|].
        destruct N. now apply nm_lt, Hv. }
    now rewrite !Out.
Qed.
Example C48_raw_example : well_formed (LRaw 50 [500; 450; 400] [2; 3; 4] [0; 1; 2]) /\ increasing (rev [500; 450; 400]).
Proof. split; [cbn; lia|]. apply inc3; lra. Qed.

(** * C83: the mixture *)
Lemma mix_range c w d x : 0 < mix c w d x < 1.
Proof.
  unfold mix. set (u := exp _). assert (U : 0 < u) by apply exp_pos. clearbody u.
  assert (V : 0 < / (1 + u)) by (apply Rinv_0_lt_compat; lra).
  assert (V1 : / (1 + u) < 1) by (rewrite <- Rinv_1; apply Rinv_lt_contravar; lra).
  destruct d; unfold Rdiv; lra.
Qed.
Lemma mix_mono c w x y : 0 < w -> x < y -> mix c w false x < mix c w false y /\ mix c w true y < mix c w true x.
Proof.
  intros Hw Hxy. unfold mix.
  assert (E : exp (- (y - c) / w) < exp (- (x - c) / w)).
  { apply exp_increasing. unfold Rdiv. apply Rmult_lt_compat_r; [now apply Rinv_0_lt_compat|lra]. }
  assert (U : 0 < exp (- (y - c) / w)) by apply exp_pos.
  set (u := exp (- (y - c) / w)) in *. set (v := exp (- (x - c) / w)) in *. clearbody u v.
  assert (I : / (1 + v) < / (1 + u)) by (apply Rinv_lt_contravar; nra).
  unfold Rdiv. lra.
Qed.
(** Real part: between the data and the model, tending to the model with growing wavelength
    for direction 0 and to the data for direction 1, half way at the mixing point. The
    imaginary part adds the data's k in full (see the refutation). *)
Theorem C83_mixture_partial : forall w xs ns ks m c wd d x, 0 < wd ->
  let l := LMixed w xs ns ks m c wd d in
  let nd := eval_table (otable (descending xs) xs ns) x in
  let kd := eval_table (otable (descending xs) xs ks) x in
  let u := mix (nm c) (nm wd) d x in
  Re (own l x) = nd + u * (Re (m x) - nd) /\ Im (own l x) = u * Im (m x) + kd /\ 0 < u < 1 /\
  (x = nm c -> u = / 2) /\
  (forall y, x < y -> if d then mix (nm c) (nm wd) d y < u else u < mix (nm c) (nm wd) d y).
Proof.
  intros w xs ns ks m c wd d x Hw l nd kd u. unfold l. cbn [own]. fold nd kd u.
  assert (Hw' : 0 < nm wd) by (unfold nm; apply Rdiv_lt_0_compat; [exact Hw|apply pow_lt; lra]).
  split; [destruct (m x); cbn; ring|]. split; [destruct (m x); cbn; ring|]. split; [apply mix_range|]. split.
  - intros ->. unfold u, mix. replace (- (nm c - nm c) / nm wd) with 0 by (field; lra). rewrite exp_0.
    destruct d; field.
  - intros y Hy. destruct (mix_mono (nm c) (nm wd) x y Hw' Hy) as [A B]. unfold u. destruct d; assumption.
Qed.
(** Mixing a model with data that agree with it exactly doubles the extinction coefficient. *)
Theorem C83_extinction_refuted : exists w xs ns ks m c wd d x k,
  well_formed (LMixed w xs ns ks m c wd d) /\ 0 < k /\ 0 < wd /\
  Im (m x) = k /\ eval_table (otable (descending xs) xs ks) x = k /\
  Im (own (LMixed w xs ns ks m c wd d) x) = k + mix (nm c) (nm wd) d x * k.
Proof.
  exists 100, [400; 500], [2; 2], [1; 1], (fun _ => (2, 1)), 450, 10, false, (nm 450), 1.
  assert (D : descending [400; 500] = false) by (unfold descending; cbn; destruct (Rlt_dec 500 400); [lra|reflexivity]).
  assert (K : eval_table (otable false [400; 500] [1; 1]) (nm 450) = 1).
  { unfold eval_table. destruct (below _ _ || above _ _); [reflexivity|].
    unfold call_linear. cbn [otable t_x t_y orient map length].
    set (h := clip _ 1 (2 - 1)). assert (h = 1)%nat by (unfold h, clip; lia). rewrite H. cbn.
    unfold nm. field. }
  rewrite D. split; [cbn; lia|]. split; [lra|]. split; [lra|]. split; [reflexivity|]. split; [exact K|].
  cbn [own]. rewrite D, K. cbn. ring.
Qed.
Example C83_example : let l := LMixed 100 [400; 500] [2; 2] [1; 1] (fun _ => (2, 1)) 450 10 false in well_formed l /\ 0 < 10.
Proof. cbn. split; [lia|lra]. Qed.

(** A layer the constructor rejects: unknown form, a mixed layer without its mixing point, or a
    table that is empty, shorter than two points or of unequal columns. *)
Definition rejected (l : layer_in) : Prop :=
  match l with
  | LSolcore _ _ _ | LModel _ _ => False
  | LRaw _ xs ns ks => length ns <> length xs \/ length ks <> length xs \/ (length xs < 2)%nat
  | LMixed _ xs _ _ _ _ _ _ => xs = []
  | LNoMixing _ _ _ _ _ | LBad => True
  end.
Lemma add_one_layers s l : st_layers (fst (add_one s l)) = st_layers s ++ [l].
Proof.
  destruct l; cbn [add_one]; try reflexivity; destruct l; try reflexivity.
  destruct (table _ _ _); [|reflexivity]. destruct (table _ _ _); reflexivity.
Qed.
Lemma add_one_rejected s l : rejected l -> snd (add_one s l) = false /\ st_num (fst (add_one s l)) = st_num s.
Proof.
  intros H. destruct l as [w n k|w m|w xs ns ks|w xs ns ks m c wd d|w xs ns ks m|]; cbn [rejected] in H; try contradiction.
  - cbn [add_one]. destruct xs as [|x xs]; [split; reflexivity|]. set (l := x :: xs) in *.
    assert (T : forall ys, length ys <> length l \/ (length l < 2)%nat ->
      exists e, table (orient (descending l) l) (orient (descending l) ys) (last_or (orient (descending l) ys)) = Err e).
    { intros ys K. unfold table, interp1d. rewrite map_length, !orient_length.
      destruct (Nat.eqb_spec (length l) (length ys)) as [Q|Q]; cbn [negb]; [|eexists; reflexivity].
      destruct (Nat.ltb_spec (length l) 2); [eexists; reflexivity|]. destruct K; [congruence|lia]. }
    destruct (table (orient (descending l) l) (orient (descending l) ns) _) as [tn|e] eqn:En; [|split; reflexivity].
    destruct (table (orient (descending l) l) (orient (descending l) ks) _) as [tk|e] eqn:Ek; [|split; reflexivity].
    exfalso. destruct (Nat.eq_dec (length ns) (length l)) as [Q|Q].
    + destruct (T ks) as (e & E); [|rewrite E in Ek; discriminate Ek]. destruct H as [H|[H|H]]; [exfalso; apply H; exact Q|now left|now right].
    + destruct (T ns) as (e & E); [now left|]. rewrite E in En. discriminate En.
  - subst xs. split; reflexivity.
  - cbn [add_one]. destruct xs; split; reflexivity.
  - split; reflexivity.
Qed.
(** The first rejected layer ends the addition: the ones before it are counted, it is remembered
    without being counted, and the ones after it leave no trace. *)
Theorem C47_error_stops : forall ls1 bad ls2, Forall well_formed ls1 -> rejected bad ->
  let s := add_layers empty_stack (ls1 ++ bad :: ls2) in
  st_num s = length ls1 /\ st_layers s = ls1 ++ [bad].
Proof.
  intros ls1 bad ls2 F B.
  assert (G : forall ls1 s a, holds s a -> Forall well_formed ls1 ->
    let t := add_layers s (ls1 ++ bad :: ls2) in
    st_num t = (length a + length ls1)%nat /\ st_layers t = st_layers s ++ ls1 ++ [bad]).
  { clear ls1 F. induction ls1 as [|l ls1 IH]; intros s a H F; cbn [app add_layers].
    - destruct (add_one_rejected s bad B) as [B1 B2]. assert (B3 := add_one_layers s bad).
      destruct (add_one s bad) as [s' b]. cbn [fst snd] in *. subst b. cbn [length]. rewrite B2, B3.
      destruct H as (_ & _ & _ & _ & H). split; [lia|reflexivity].
    - destruct (add_one_holds s a l H (Forall_inv F)) as (s' & E & H'). assert (L := add_one_layers s l).
      rewrite E in L |- *. cbn [fst] in L.
      destruct (IH s' _ H' (Forall_inv_tail F)) as [I1 I2]. rewrite I1, I2, L, app_length. cbn [length].
      split; [lia|]. rewrite <- app_assoc. reflexivity. }
  destruct (G ls1 empty_stack []) as [G1 G2]; [repeat split|exact F|]. split; [exact G1|exact G2].
Qed.
Example C47_error_example : Forall well_formed [LSolcore 100 (fun _ => 3) (fun _ => 0)] /\
  rejected (LRaw 50 [400; 500] [2; 3] [0]).
Proof. split; [constructor; [exact I|constructor]|]. cbn. right. left. discriminate. Qed.

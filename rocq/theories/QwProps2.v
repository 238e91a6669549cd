(** Properties C99 (energy filter) and C100 (confinement filter). *)
From Coq Require Import Reals String List Bool ZArith Lra Lia.
From Verif Require Import Common InterpModel NpModel StructModel StructProps StrainModel StrainProps
  DetBalModel DetBalProps SmoothModel SmoothProps QwModel QwProps.
From Coq Require Import List.
Import ListNotations.
Open Scope string_scope.
Open Scope R_scope.
Open Scope list_scope.

(** * C99 *)

Lemma fold_Rmax_ge l : forall a, a <= fold_left Rmax l a.
Proof.
  induction l as [|b l IH]; intros a; simpl; [lra|]. eapply Rle_trans; [apply (Rmax_l a b)|apply IH].
Qed.

(** C99: the filter keeps, in their order and with their wave functions, exactly the
    states whose distance from zero is at most that of the potential at the first mesh
    point plus [quasiconfined]. *)
Theorem C99_energy_filter :
  forall (P : Type) (E : list R) (psi : list P) V quasi, V <> [] ->
    exists r, discard_unconfined_energy E psi V quasi = Ok r /\
      (forall e p, In (e, p) r <-> In (e, p) (combine E psi) /\ Rabs e <= Rabs (hd 0 V) + quasi) /\
      (forall i j a b, nth_error r i = Some a -> nth_error r j = Some b -> (i < j)%nat ->
         exists i' j', (i' < j')%nat /\ nth_error (combine E psi) i' = Some a /\ nth_error (combine E psi) j' = Some b).
Proof.
  intros P E psi V quasi Hne. destruct V as [|v0 V]; [contradiction|]. unfold discard_unconfined_energy. simpl.
  rewrite Rmin_left by apply fold_Rmax_ge. eexists. split; [reflexivity|]. split.
  - intros e p. rewrite filter_In. simpl. destruct (Rle_dec (Rabs e) (Rabs v0 + quasi)); intuition discriminate.
  - generalize (combine E psi). intros l.
    set (f := fun p : R * P => if Rle_dec (Rabs (fst p)) (Rabs v0 + quasi) then true else false).
    induction l as [|c l IH]; intros i j a b Hi Hj Hij; simpl in *; [now destruct i|].
    destruct (f c).
    + destruct i as [|i]; destruct j as [|j]; simpl in *; try lia.
      * injection Hi as <-. apply nth_error_In in Hj. apply filter_In in Hj as [Hj _]. apply In_nth_error in Hj as (k & Hk).
        exists 0%nat, (S k). split; [lia|]. split; [reflexivity|assumption].
      * destruct (IH i j a b Hi Hj ltac:(lia)) as (i' & j' & H1 & H2 & H3). exists (S i'), (S j'). split; [lia|]. now split.
    + destruct (IH i j a b Hi Hj Hij) as (i' & j' & H1 & H2 & H3). exists (S i'), (S j'). split; [lia|]. now split.
Qed.
Print Assumptions C99_energy_filter.
Example C99_case :
  discard_unconfined_energy [1; 3; 2] ["a"; "b"; "c"] [2; -5] 0 = Ok [(1, "a"); (2, "c")].
Proof.
  unfold discard_unconfined_energy. cbn. rewrite Rmin_left by apply Rmax_l. rewrite !(Rabs_right 2), (Rabs_right 1), (Rabs_right 3) by lra.
  destruct (Rle_dec 1 (2 + 0)); [|lra]. destruct (Rle_dec 3 (2 + 0)); [lra|]. destruct (Rle_dec 2 (2 + 0)); [|lra]. reflexivity.
Qed.

(** * C100 *)

(** The points of the mesh inside a closed interval, with the probability there. *)
Definition between (lo hi : R) (l : list (R * R)) : list (R * R) :=
  filter (fun p => if Rle_dec lo (fst p) then if Rle_dec (fst p) hi then true else false else false) l.
(** Trapezium rule over points (x, y). *)
Fixpoint area (l : list (R * R)) : R :=
  match l with
  | p :: ((p' :: _) as l') => (fst p' - fst p) * (snd p + snd p') / 2 + area l'
  | _ => 0
  end.
Definition squared (x psi : list R) : list (R * R) := combine x (map (fun v => v * v) psi).

Lemma area_trapz : forall x y, length y = length x -> area (combine x y) = np_trapz y x.
Proof.
  induction x as [|x0 x IH]; intros [|y0 y] H; simpl in H; try lia; [reflexivity|].
  destruct x as [|x1 x], y as [|y1 y]; simpl in H; try lia; [reflexivity|].
  rewrite np_trapz_cons, <- IH by (simpl; lia). reflexivity.
Qed.
Lemma map_pick_filter {B} (f : R -> bool) (x : list R) (g : nat -> B) (pr : R * R -> B) (y : list R) :
  length y = length x -> (forall i, (i < length x)%nat -> g i = pr (nth i x 0, nth i y 0)) ->
  map g (where_ f x) = map pr (filter (fun p => f (fst p)) (combine x y)).
Proof.
  intros Hl. unfold where_.
  assert (G : forall n, (n <= length x)%nat -> (forall i, (i < length x)%nat -> g i = pr (nth i x 0, nth i y 0)) ->
     map g (filter (fun i => f (nth i x 0)) (seq 0 n)) = map pr (filter (fun p => f (fst p)) (firstn n (combine x y)))).
  { induction n as [|n IH]; intros Hn Hg; [reflexivity|].
    assert (F : firstn (S n) (combine x y) = firstn n (combine x y) ++ [(nth n x 0, nth n y 0)]).
    { clear -Hn Hl. revert n y Hl Hn. induction x as [|a x IH]; intros n y Hl Hn; simpl in Hn; [lia|].
      destruct y as [|b y]; simpl in Hl; [lia|]. destruct n; [reflexivity|]. simpl in *. f_equal. apply IH; lia. }
    rewrite F, seq_S, !filter_app, !map_app, IH by (assumption || lia). f_equal. simpl. destruct (f (nth n x 0)); [|reflexivity]. simpl. now rewrite Hg by lia. }
  intros Hg. rewrite (G (length x) (le_n _) Hg). rewrite firstn_all2; [reflexivity|]. rewrite combine_length. lia.
Qed.

Lemma locate_none w x region : forall ls i (lbs : list label) depth,
  (forall k, (i <= k < i + length ls)%nat -> nth k lbs (None : label) <> Some region) -> locate_loop w x i ls lbs depth region = [].
Proof.
  induction ls as [|r ls IH]; intros i lbs depth H; cbn [locate_loop]; [reflexivity|].
  destruct (label_eqb (nth i lbs (None : label)) (Some region)) eqn:E.
  { apply label_eqb_eq in E. exfalso. apply (H i); [simpl; lia|assumption]. }
  cbn [andb app]. apply IH. intros k Hk. apply H. simpl. lia.
Qed.
Lemma locate_one w x region j : forall ls i (lbs : list label) depth,
  length lbs = (i + length ls)%nat -> (i <= j < i + length ls)%nat -> nth j lbs (None : label) = Some region ->
  (forall k, (i <= k < i + length ls)%nat -> k <> j -> nth k lbs (None : label) <> Some region) ->
  locate_loop w x i ls lbs depth region = where_ (inside (depth + start w ls (j - i)) (w (nth (j - i) ls 0%nat))) x.
Proof.
  induction ls as [|r ls IH]; intros i lbs depth Hl Hj Hr H; cbn [locate_loop]; simpl length in *; [lia|].
  destruct (Nat.eq_dec i j) as [->|Hne].
  - rewrite Hr. rewrite (proj2 (label_eqb_eq _ _) eq_refl). destruct (Nat.ltb_spec j (length lbs)); [|lia]. cbn [andb].
    rewrite locate_none. 2:{ intros k Hk. apply H; lia. }
    rewrite app_nil_r, Nat.sub_diag. simpl. unfold start. simpl. now rewrite Rplus_0_r.
  - destruct (label_eqb (nth i lbs (None : label)) (Some region)) eqn:E.
    { apply label_eqb_eq in E. exfalso. apply (H i); [lia|assumption|assumption]. }
    cbn [andb app]. rewrite IH; [|lia|lia|assumption|intros; apply H; lia].
    replace (j - i)%nat with (S (j - S i)) by lia. unfold start. simpl. now rewrite Rplus_assoc.
Qed.

Lemma area_nonneg l : (forall p, In p l -> 0 <= snd p) -> (forall i, (S i < length l)%nat -> fst (nth i l (0, 0)) <= fst (nth (S i) l (0, 0))) -> 0 <= area l.
Proof.
  induction l as [|p l IH]; intros Hp Hs; [simpl; lra|]. destruct l as [|p' l]; [simpl; lra|].
  change (area (p :: p' :: l)) with ((fst p' - fst p) * (snd p + snd p') / 2 + area (p' :: l)).
  assert (0 <= area (p' :: l)).
  { apply IH; [intros; apply Hp; now right|]. intros i Hi. apply (Hs (S i)). simpl in *. lia. }
  pose proof (Hs 0%nat ltac:(simpl; lia)) as S0. simpl in S0.
  pose proof (Hp p ltac:(now left)). pose proof (Hp p' ltac:(right; now left)). nra.
Qed.
(** Sortedness as a relation on neighbours, and the area of the part in an interval. *)
Fixpoint sorted (l : list (R * R)) : Prop :=
  match l with
  | p :: ((p' :: _) as l') => fst p <= fst p' /\ sorted l'
  | _ => True
  end.
Lemma area_nonneg' l : (forall p, In p l -> 0 <= snd p) -> sorted l -> 0 <= area l.
Proof.
  induction l as [|p l IH]; intros Hp Hs; [simpl; lra|]. destruct l as [|p' l]; [simpl; lra|].
  change (area (p :: p' :: l)) with ((fst p' - fst p) * (snd p + snd p') / 2 + area (p' :: l)). destruct Hs as [S0 S1].
  assert (0 <= area (p' :: l)) by (apply IH; [intros; apply Hp; now right|assumption]).
  pose proof (Hp p ltac:(now left)). pose proof (Hp p' ltac:(right; now left)). nra.
Qed.
Lemma sorted_le p l : sorted (p :: l) -> forall p', In p' l -> fst p <= fst p'.
Proof.
  revert p. induction l as [|a l IH]; intros p Hs p' Hin; [contradiction|]. destruct Hs as [S0 S1].
  destruct Hin as [<-|Hin]; [assumption|]. specialize (IH a S1 p' Hin). lra.
Qed.
Lemma sorted_tail p l : sorted (p :: l) -> sorted l.
Proof. destruct l; [easy|]. intros [_ H]. exact H. Qed.
Lemma between_sorted lo hi l : sorted l -> sorted (between lo hi l).
Proof.
  induction l as [|p l IH]; intros Hs; [exact I|]. unfold between. simpl. fold (between lo hi l).
  pose proof (sorted_tail _ _ Hs) as Ht. specialize (IH Ht).
  destruct (Rle_dec lo (fst p)); [|exact IH]. destruct (Rle_dec (fst p) hi); [|exact IH].
  destruct (between lo hi l) as [|p' l'] eqn:E; [exact I|]. split; [|exact IH].
  apply (sorted_le p l Hs). assert (In p' (between lo hi l)) by (rewrite E; now left). unfold between in H. apply filter_In in H. tauto.
Qed.
Lemma between_past lo hi l p : sorted (p :: l) -> hi < fst p -> between lo hi l = [].
Proof.
  intros Hs Hp. pose proof (sorted_le p l Hs) as Hle. clear Hs. induction l as [|a l IH]; [reflexivity|]. unfold between. simpl. fold (between lo hi l).
  rewrite IH by (intros; apply Hle; now right). pose proof (Hle a ltac:(now left)).
  destruct (Rle_dec lo (fst a)); [|reflexivity]. destruct (Rle_dec (fst a) hi); [lra|reflexivity].
Qed.
Lemma area_between lo hi : forall l, (forall p, In p l -> 0 <= snd p) -> sorted l -> area (between lo hi l) <= area l.
Proof.
  induction l as [|p l IH]; intros Hp Hs; [simpl; lra|].
  assert (Hp' : forall p, In p l -> 0 <= snd p) by (intros; apply Hp; now right).
  pose proof (sorted_tail _ _ Hs) as Ht. specialize (IH Hp' Ht).
  destruct l as [|p' l].
  { unfold between. simpl. destruct (Rle_dec lo (fst p)); [destruct (Rle_dec (fst p) hi)|]; simpl; lra. }
  change (area (p :: p' :: l)) with ((fst p' - fst p) * (snd p + snd p') / 2 + area (p' :: l)).
  pose proof (area_nonneg' _ Hp' Ht) as An.
  assert (T : 0 <= (fst p' - fst p) * (snd p + snd p') / 2).
  { destruct Hs as [S0 _]. pose proof (Hp p ltac:(now left)). pose proof (Hp p' ltac:(right; now left)). nra. }
  change (between lo hi (p :: p' :: l)) with
    (if (if Rle_dec lo (fst p) then if Rle_dec (fst p) hi then true else false else false) then p :: between lo hi (p' :: l) else between lo hi (p' :: l)).
  destruct (Rle_dec lo (fst p)) as [H1|H1]; [|lra]. destruct (Rle_dec (fst p) hi) as [H2|H2]; [|lra].
  destruct Hs as [S0 _].
  destruct (Rle_dec (fst p') hi) as [H3|H3].
  - assert (E : between lo hi (p' :: l) = p' :: between lo hi l).
    { unfold between. simpl. destruct (Rle_dec lo (fst p')); [|lra]. destruct (Rle_dec (fst p') hi); [reflexivity|lra]. }
    rewrite E in IH |- *. change (area (p :: p' :: between lo hi l)) with ((fst p' - fst p) * (snd p + snd p') / 2 + area (p' :: between lo hi l)). lra.
  - assert (E : between lo hi (p' :: l) = []).
    { unfold between. simpl. fold (between lo hi l). rewrite (between_past lo hi l p' Ht) by lra.
      destruct (Rle_dec lo (fst p')); [|reflexivity]. destruct (Rle_dec (fst p') hi); [lra|reflexivity]. }
    rewrite E. change (area [p]) with 0. lra.
Qed.
Lemma nondecreasing_sorted : forall x y, nondecreasing x -> length y = length x -> sorted (combine x y).
Proof.
  induction x as [|a x IH]; intros [|b y] Hx Hl; simpl in Hl; try lia; [exact I|].
  destruct x as [|a' x], y as [|b' y]; simpl in Hl; try lia; [exact I|]. split.
  - simpl. apply (Hx 0%nat 1%nat). simpl. lia.
  - apply IH; [|simpl; lia]. intros i j Hij. apply (Hx (S i) (S j)). simpl in *. lia.
Qed.

(** C100, as stated: a state is kept exactly if the probability of finding it in the
    wells is at least [threshold].  Proved for structures with one well: the quantity
    compared with the threshold is the trapezium integral over the mesh points of the
    well divided by that over the whole mesh, and lies between 0 and 1. *)
Theorem C100_confinement_partial :
  forall h x s E psi threshold j e p,
    nondecreasing x -> length p = length x -> threshold <> 0 ->
    length (labels s) = length (layers s) -> (j < length (layers s))%nat ->
    (forall k, (k < length (layers s))%nat -> (nth k (labels s) None = Some "well" <-> k = j)) ->
    let lo := start (fun r => q_width (h r)) (layers s) j in
    let hi := lo + q_width (h (nth j (layers s) 0%nat)) in
    let total := area (squared x p) in
    let inner := area (between lo hi (squared x p)) in
    (In (e, p) (discard_unconfined h x s E psi threshold) <->
       In (e, p) (combine E psi) /\ total <> 0 /\ threshold <= inner / total) /\
    0 <= inner <= total.
Proof.
  intros h x s E psi threshold j e p Hx Hp Hth Hl Hj Hw lo hi total inner.
  assert (L : locate_regions h x s "well" = where_ (inside lo (q_width (h (nth j (layers s) 0%nat)))) x).
  { unfold locate_regions. rewrite (locate_one _ _ _ j); [|simpl; lia|lia|apply Hw; lia|].
    - rewrite Nat.sub_0_r. unfold lo. now rewrite Rplus_0_l.
    - intros k Hk Hne C. apply Hw in C; [contradiction|lia]. }
  assert (Sq : map (fun v => v ^ 2) p = map (fun v => v * v) p) by (apply map_ext; intros v; ring).
  assert (Tot : np_trapz (map (fun v => v ^ 2) p) x = total).
  { unfold total, squared. rewrite area_trapz by (rewrite map_length; assumption). now rewrite Sq. }
  assert (In_ : np_trapz (map (fun v => v ^ 2) (pick p (locate_regions h x s "well"))) (pick x (locate_regions h x s "well")) = inner).
  { rewrite L. unfold pick. set (f := inside lo (q_width (h (nth j (layers s) 0%nat)))).
    assert (E1 : map (fun i => nth i x 0) (where_ f x) = map fst (filter (fun q => f (fst q)) (squared x p))).
    { apply (map_pick_filter f x (fun i => nth i x 0) fst (map (fun v => v * v) p)); [rewrite map_length; assumption|]. intros i Hi. reflexivity. }
    assert (E2 : map (fun v => v ^ 2) (map (fun i => nth i p 0) (where_ f x)) = map snd (filter (fun q => f (fst q)) (squared x p))).
    { rewrite map_map. apply (map_pick_filter f x (fun i => nth i p 0 ^ 2) snd (map (fun v => v * v) p)); [rewrite map_length; assumption|]. intros i Hi. simpl.
      rewrite (nth_indep (map (fun v => v * v) p) 0 ((fun v => v * v) 0)) by (rewrite map_length; lia). rewrite (map_nth (fun v => v * v)). ring. }
    rewrite E1, E2. rewrite <- area_trapz by now rewrite !map_length.
    assert (C : forall (l : list (R * R)), combine (map fst l) (map snd l) = l).
    { induction l as [|[a b] l IH]; simpl; [reflexivity|]. now rewrite IH. }
    rewrite C. unfold inner, between, hi, f. reflexivity. }
  assert (Pos : forall p0, In p0 (squared x p) -> 0 <= snd p0).
  { intros [a b] Hin. unfold squared in Hin. apply in_combine_r in Hin. apply in_map_iff in Hin as (v & <- & _). simpl. nra. }
  assert (So : sorted (squared x p)) by (unfold squared; apply nondecreasing_sorted; [assumption|rewrite map_length; assumption]).
  split.
  - unfold discard_unconfined. destruct (Req_EM_T threshold 0); [contradiction|]. rewrite filter_In. cbn [snd].
    rewrite Tot. unfold share. rewrite Tot, In_. destruct (Req_EM_T total 0) as [Z|Z].
    + split; [intros [_ H]; discriminate|intros (_ & N & _); contradiction].
    + destruct (Rle_dec threshold (inner / total)); split; intros H; try tauto; intuition discriminate.
  - split; [apply area_nonneg'; [intros p0 H; unfold between in H; apply filter_In in H; now apply Pos|now apply between_sorted]|].
    apply area_between; assumption.
Qed.
Print Assumptions C100_confinement_partial.
Example C100_case :
  nondecreasing (linspace 0 3 7) /\ length (labels ex_struct) = length (layers ex_struct) /\
  (forall k, (k < length (layers ex_struct))%nat -> (nth k (labels ex_struct) None = Some "well" <-> k = 1%nat)).
Proof.
  split; [apply linspace_nondecreasing; lra|]. split; [reflexivity|].
  intros k Hk. simpl in Hk. destruct k as [|[|k]]; [|tauto|lia]. simpl. split; intros; discriminate.
Qed.

(** With two wells the trapezium rule also runs over the barrier between them: a state
    with half of its probability in the wells passes the default threshold 0.8. *)
Definition two_wells : structure nat := mkStructure [0; 1; 2]%nat [Some "well"; Some "barrier"; Some "well"].
Definition unit_heap : nat -> qlayer := fun _ => {| q_width := 1; q_mat := ex_mat; q_Ec := None; q_Ev := None |}.
Theorem C100_two_wells_refuted :
  exists x psi, let sq := squared x psi in
    x = linspace 0 3 7 /\ length psi = length x /\
    In (1, psi) (discard_unconfined unit_heap x two_wells [1] [psi] (8 / 10)) /\
    (area (between 0 1 sq) + area (between 2 3 sq)) / area sq = 1 / 2.
Proof.
  assert (X : linspace 0 3 7 = [0; 1/2; 1; 3/2; 2; 5/2; 3]).
  { unfold linspace. simpl. repeat (f_equal; [lra|]). f_equal. lra. }
  exists (linspace 0 3 7), [0; 0; 1; 0; 1; 0; 0]. rewrite X. cbv zeta. split; [reflexivity|]. split; [reflexivity|].
  assert (I : forall lo x, inside lo 1 x = if Rle_dec lo x then if Rle_dec x (lo + 1) then true else false else false) by reflexivity.
  assert (L : locate_regions unit_heap [0; 1/2; 1; 3/2; 2; 5/2; 3] two_wells "well" = [0; 1; 2; 4; 5; 6]%nat).
  { unfold locate_regions, two_wells, unit_heap. cbn [layers labels q_width]. cbn [locate_loop]. cbn [nth label_eqb String.eqb Ascii.eqb Bool.eqb length Nat.ltb Nat.leb andb].
    unfold where_. cbn [length seq filter nth]. rewrite !I.
    repeat (match goal with |- context [Rle_dec ?a ?b] => destruct (Rle_dec a b); try lra end). reflexivity. }
  split.
  - unfold discard_unconfined. destruct (Req_EM_T (8 / 10) 0); [lra|]. rewrite L. cbn [combine filter snd].
    assert (T : np_trapz (map (fun v => v ^ 2) [0; 0; 1; 0; 1; 0; 0]) [0; 1/2; 1; 3/2; 2; 5/2; 3] = 1) by (simpl; lra).
    unfold share. rewrite T. destruct (Req_EM_T 1 0); [lra|].
    assert (S : np_trapz (map (fun v => v ^ 2) (pick [0; 0; 1; 0; 1; 0; 0] [0; 1; 2; 4; 5; 6]%nat)) (pick [0; 1/2; 1; 3/2; 2; 5/2; 3] [0; 1; 2; 4; 5; 6]%nat) = 3 / 2)
      by (simpl; lra).
    rewrite S. destruct (Rle_dec (8 / 10) (3 / 2 / 1)); [now left|lra].
  - unfold squared, between. cbn [map combine filter fst].
    repeat (match goal with |- context [Rle_dec ?a ?b] => destruct (Rle_dec a b); try lra end).
    simpl. lra.
Qed.
Print Assumptions C100_two_wells_refuted.

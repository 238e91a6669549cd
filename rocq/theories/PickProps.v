(** Property C189 about picking critical points. *)
From Coq Require Import Reals String List Bool Arith Lra Lia Sorted.
From Verif Require Import Common InterpModel NpModel PickModel.
From Coq Require Import List.
Import ListNotations.
Open Scope R_scope.
Open Scope list_scope.

(** * The machine *)
Definition sound (n : nat) (p : picker) : Prop :=
  Forall (fun s => length s = n) (done_ p) /\ (length (open_ p) <= n)%nat /\ curve p = Nat.min (length (open_ p)) (n - 1).
Lemma removelast_len {A} (l : list A) : length (removelast l) = (length l - 1)%nat.
Proof. induction l as [|x l IH]; [easy|]. destruct l; [easy|]. change (removelast (x :: a :: l)) with (x :: removelast (a :: l)). cbn [length] in *. lia. Qed.
Lemma step_sound curves e p : (1 <= length curves)%nat -> sound (length curves) p -> sound (length curves) (on_event curves p e).
Proof.
  intros N (H1 & H2 & H3). destruct e; cbn [on_event].
  - unfold on_pick, n_curves. split; [exact H1|]. cbn [open_ curve done_].
    destruct (Nat.ltb_spec (curve p) (length curves)) as [L|L]; [|lia].
    destruct (Nat.ltb_spec (length (open_ p)) (length curves)) as [L2|L2]; cbn [andb];
      destruct (Nat.ltb_spec (curve p) (length curves - 1)) as [L3|L3]; try rewrite app_length; cbn [length]; lia.
  - destruct (open_ p) as [|a l] eqn:E; [unfold sound; rewrite E; easy|]. cbv zeta. unfold sound. cbn [done_ open_ curve].
    rewrite removelast_len. cbn [length] in *. split; [exact H1|]. lia.
  - unfold n_curves. destruct (Nat.eqb_spec (length (open_ p)) (length curves)) as [L|L]; [|easy].
    split; cbn [done_ open_ curve]; [|cbn; lia]. apply Forall_app. split; [exact H1|]. now constructor.
  - easy.
  - easy.
  - easy.
  - easy.
Qed.
Lemma play_sound curves es : forall p, (1 <= length curves)%nat -> sound (length curves) p -> sound (length curves) (play curves es p).
Proof. unfold play. induction es as [|e es IH]; intros p N H; [exact H|]. cbn [fold_left]. apply IH; [exact N|]. now apply step_sound. Qed.
Lemma start_sound n : sound n start.
Proof. repeat split; cbn; try lia. constructor. Qed.

(** Whatever is clicked and pressed: the finished sets have one point per curve, the set being
    picked at most that, and the curve in red is the one of the next point (or the last). *)
Theorem C189_machine : forall curves es p, curves <> [] -> play curves es start = p ->
  (forall s, In s (done_ p) -> length s = length curves) /\ (length (open_ p) <= length curves)%nat /\
  curve p = Nat.min (length (open_ p)) (length curves - 1).
Proof.
  intros curves es p N <-. assert (L : (1 <= length curves)%nat) by (destruct curves; [easy|cbn; lia]).
  destruct (play_sound curves es start L (start_sound _)) as (A & B & D). split; [|now split]. now apply Forall_forall.
Qed.

(** Point [i] of a set is on curve [i]. *)
Definition on_curves (curves : list (list R * list R)) (s : list (R * R)) : Prop :=
  forall i, (i < length s)%nat -> snd (nth i s (0, 0)) = np_interp (fst (nth i curves ([], []))) (snd (nth i curves ([], []))) (fst (nth i s (0, 0))).
Lemma nth_removelast {A} (l : list A) i d : (i < length l - 1)%nat -> nth i (removelast l) d = nth i l d.
Proof.
  revert i. induction l as [|x l IH]; intros i H; [cbn in H; lia|]. destruct l as [|y l]; [cbn in H; lia|].
  change (removelast (x :: y :: l)) with (x :: removelast (y :: l)). destruct i as [|i]; [easy|]. cbn [nth]. apply IH. cbn [length] in *. lia.
Qed.
(** Unless the key n is pressed, every point of every set lies on the curve it belongs to. *)
Theorem C189_on_curve : forall curves es p, curves <> [] -> ~ In KeyN es -> play curves es start = p ->
  forall s, In s (done_ p ++ [open_ p]) -> on_curves curves s.
Proof.
  intros curves es p N K <-.
  assert (L : (1 <= length curves)%nat) by (destruct curves; [easy|cbn; lia]).
  assert (G : forall es p, ~ In KeyN es -> sound (length curves) p -> snap p = true ->
    (forall s, In s (done_ p ++ [open_ p]) -> on_curves curves s) -> forall s, In s (done_ (play curves es p) ++ [open_ (play curves es p)]) -> on_curves curves s).
  { clear es K. induction es as [|e es IH]; intros p K S0 Sn H; [exact H|]. unfold play in *. cbn [fold_left].
    apply IH; [intros X; apply K; now right|now apply step_sound| |].
    - destruct e; cbn [on_event]; try exact Sn; try (exfalso; apply K; left; reflexivity).
      + destruct (open_ p); [exact Sn|exact Sn].
      + destruct (Nat.eqb _ _); exact Sn.
    - assert (O : on_curves curves (open_ p)) by (apply H, in_or_app; right; left; reflexivity).
      assert (D : forall s, In s (done_ p) -> on_curves curves s) by (intros s Hs; apply H, in_or_app; now left).
      destruct S0 as (_ & S1 & S2).
      intros s Hs. apply in_app_or in Hs. destruct e; cbn [on_event] in Hs.
      + unfold on_pick, n_curves in Hs. cbn [done_ open_] in Hs. destruct Hs as [Hs|[<-|[]]]; [now apply D|].
        destruct (Nat.ltb_spec (curve p) (length curves)) as [L1|L1]; cbn [andb]; [|exact O].
        destruct (Nat.ltb_spec (length (open_ p)) (length curves)) as [L2|L2]; [|exact O].
        intros i Hi. rewrite app_length in Hi. cbn [length] in Hi.
        destruct (Nat.lt_ge_cases i (length (open_ p))) as [Hl|Hl].
        * rewrite app_nth1 by exact Hl. now apply O.
        * assert (i = length (open_ p)) by lia. subst i. rewrite app_nth2, Nat.sub_diag by lia. cbn [nth fst snd]. unfold picked. rewrite Sn.
          replace (curve p) with (length (open_ p)) by lia. reflexivity.
      + destruct (open_ p) as [|a l] eqn:E.
        * destruct Hs as [Hs|[<-|[]]]; [now apply D|]. rewrite E. exact O.
        * cbv zeta in Hs. cbn [done_ open_] in Hs. destruct Hs as [Hs|[<-|[]]]; [now apply D|].
          intros i Hi. rewrite removelast_len in Hi. rewrite nth_removelast by exact Hi. apply O. cbn [length] in *. lia.
      + destruct (Nat.eqb _ _); cbn [done_ open_] in Hs.
        * destruct Hs as [Hs|[<-|[]]]; [|intros i Hi; cbn in Hi; lia]. apply in_app_or in Hs. destruct Hs as [Hs|[<-|[]]]; [now apply D|exact O].
        * destruct Hs as [Hs|[<-|[]]]; [now apply D|exact O].
      + destruct Hs as [Hs|[<-|[]]]; [now apply D|exact O].
      + destruct Hs as [Hs|[<-|[]]]; [now apply D|exact O].
      + exfalso. apply K. left. reflexivity.
      + destruct Hs as [Hs|[<-|[]]]; [now apply D|exact O]. }
  apply G; [exact K|apply start_sound|reflexivity|]. intros s [<-|[]] i Hi. cbn in Hi. lia.
Qed.

(** Backspace undoes a click, unless all points of the set were there already. *)
Theorem C189_undo : forall curves es p x y, curves <> [] -> play curves es start = p -> (length (open_ p) < length curves)%nat ->
  length (open_ (on_event curves p (Pick x y))) = S (length (open_ p)) /\
  on_event curves (on_event curves p (Pick x y)) Backspace = p.
Proof.
  intros curves es p x y N E L. destruct (C189_machine curves es p N E) as (_ & B & D). clear E.
  assert (O : open_ (on_pick curves p x y) = open_ p ++ [(x, picked curves p x y)]).
  { unfold on_pick, n_curves. cbn [open_]. destruct (Nat.ltb_spec (curve p) (length curves)); [|lia]. destruct (Nat.ltb_spec (length (open_ p)) (length curves)); [easy|lia]. }
  cbn [on_event]. rewrite O. split; [rewrite app_length; cbn; lia|].
  destruct (open_ p ++ [(x, picked curves p x y)]) eqn:Q; [now apply app_eq_nil in Q|]. rewrite <- Q. cbv zeta.
  rewrite removelast_last. destruct p as [d o c f lg sn]. cbn [done_ open_ curve finished log_ snap on_pick] in *. f_equal. lia.
Qed.
Example C189_machine_ex : let c := [([1; 2], [3; 4]); ([1; 2], [5; 6])] in
  let p := play c [Pick 1 0; Backspace; Enter; Pick 1 0; Pick 1 0; Pick 1 0; Enter; Pick 1 7] start in
  length (done_ p) = 1%nat /\ length (open_ p) = 1%nat /\ curve p = 1%nat.
Proof. cbn. repeat split. Qed.

(** * Saving *)
Lemma set_points_spec k : forall ss subset, length subset = length ss ->
  exists r, set_points k subset ss = Ok r /\ length r = length ss /\
    forall i d, (i < length ss)%nat ->
      s_name (nth i r d) = s_name (nth i ss d) /\ s_file (nth i r d) = s_file (nth i ss d) /\
      s_points (nth i r d) = s_points (nth i ss d) ++ [(k, (fst (nth i subset (0, 0)) * / 10 ^ 9, snd (nth i subset (0, 0))))].
Proof.
  induction ss as [|s ss IH]; intros [|c cs] L; cbn [length] in L; try discriminate L.
  - exists []. repeat split. all: cbn in *; lia.
  - cbn [set_points]. destruct (IH cs ltac:(lia)) as (r & E & Lr & H). rewrite E. cbn [bindR].
    eexists. split; [reflexivity|]. split; [cbn; lia|]. intros [|i] d Hi; [easy|]. cbn [nth]. apply H. cbn in Hi. lia.
Qed.
Lemma set_all_spec : forall subsets k ss, Forall (fun s => length s = length ss) subsets ->
  exists r, set_all k subsets ss = Ok r /\ length r = length ss /\
    forall i d, (i < length ss)%nat ->
      s_name (nth i r d) = s_name (nth i ss d) /\ s_file (nth i r d) = s_file (nth i ss d) /\
      s_points (nth i r d) = s_points (nth i ss d) ++
        map (fun j => ((k + j)%nat, (fst (nth i (nth j subsets []) (0, 0)) * / 10 ^ 9, snd (nth i (nth j subsets []) (0, 0))))) (seq 0 (length subsets)).
Proof.
  induction subsets as [|c cs IH]; intros k ss F.
  - exists ss. split; [reflexivity|]. split; [reflexivity|]. intros i d Hi. cbn. now rewrite app_nil_r.
  - inversion F as [|? ? F1 F2]; subst. cbn [set_all]. destruct (set_points_spec k ss c F1) as (r & E & Lr & H). rewrite E. cbn [bindR].
    destruct (IH (S k) r) as (r2 & E2 & L2 & H2); [eapply Forall_impl; [|exact F2]; cbn; intros a Ha; now rewrite Lr|].
    exists r2. split; [exact E2|]. split; [lia|]. intros i d Hi. destruct (H i d Hi) as (A1 & A2 & A3). destruct (H2 i d ltac:(lia)) as (B1 & B2 & B3).
    rewrite B1, B2, B3, A1, A2, A3. split; [easy|]. split; [easy|]. rewrite <- app_assoc. f_equal.
    cbn [length seq map app]. rewrite Nat.add_0_r. f_equal. rewrite <- seq_shift, map_map. apply map_ext. intros j. cbn [nth]. now rewrite Nat.add_succ_comm.
Qed.
(** Saving never raises: every composition gets its file and, numbered from one, the points of
    its curve of all finished sets, in metres. *)
Theorem C189_saved : forall curves es p order, curves <> [] -> play curves es start = p -> length order = length curves ->
  exists ss, save order p = Ok ss /\ length ss = length order /\
    forall i d e, (i < length order)%nat ->
      s_name (nth i ss d) = fst (nth i order e) /\ s_file (nth i ss d) = snd (nth i order e) /\
      length (s_points (nth i ss d)) = length (done_ p) /\
      forall j, (j < length (done_ p))%nat -> nth j (s_points (nth i ss d)) (0%nat, (0, 0)) =
        (S j, (fst (nth i (nth j (done_ p) []) (0, 0)) / 10 ^ 9, snd (nth i (nth j (done_ p) []) (0, 0)))).
Proof.
  intros curves es p order N E L. destruct (C189_machine curves es p N E) as (A & _). clear E.
  destruct (set_all_spec (done_ p) 1 (map (fun f => Section_ (fst f) (snd f) []) order)) as (r & E & Lr & H).
  { apply Forall_forall. intros s Hs. rewrite map_length, L. now apply A. }
  rewrite map_length in *. exists r. split; [exact E|]. split; [exact Lr|]. intros i d e Hi. destruct (H i d Hi) as (B1 & B2 & B3).
  assert (Q : nth i (map (fun f : string * string => Section_ (fst f) (snd f) []) order) d = Section_ (fst (nth i order e)) (snd (nth i order e)) []).
  { rewrite (nth_indep _ d (Section_ (fst e) (snd e) [])) by now rewrite map_length. apply (map_nth (fun f : string * string => Section_ (fst f) (snd f) [])). }
  rewrite Q in B1, B2, B3. cbn [s_name s_file s_points app] in B1, B2, B3. split; [exact B1|]. split; [exact B2|]. rewrite B3.
  split; [now rewrite map_length, seq_length|]. intros j Hj.
  set (F := fun j0 : nat => ((1 + j0)%nat, (fst (nth i (nth j0 (done_ p) []) (0, 0)) * / 10 ^ 9, snd (nth i (nth j0 (done_ p) []) (0, 0))))).
  rewrite (nth_indep _ (0%nat, (0, 0)) (F 0%nat)) by now rewrite map_length, seq_length. rewrite (map_nth F). rewrite seq_nth by exact Hj. reflexivity.
Qed.
Example C189_saved_ex : exists ss, save [("0", "a_0.txt"); ("1", "b_1.txt")]%string
  (play [([1; 2], [3; 4]); ([1; 2], [5; 6])] [KeyN; Pick 7 1; Pick 8 2; Enter; Pick 9 3; Escape] start) = Ok ss /\
  map s_points ss = [[(1%nat, (7 * / 10 ^ 9, 1))]; [(1%nat, (8 * / 10 ^ 9, 2))]].
Proof. eexists. split; [reflexivity|]. reflexivity. Qed.

(** A set that has all its points is lost when the window is closed with Escape before Enter. *)
Theorem C189_unfinished_refuted : exists curves es p order ss, curves <> [] /\ play curves es start = p /\
  length (open_ p) = length curves /\ finished p = true /\ length order = length curves /\ save order p = Ok ss /\ (forall s, In s ss -> s_points s = []).
Proof.
  exists [([1; 2], [3; 4])], [Pick 1 0; Escape]. eexists _, [("0", "a_0.txt")]%string, _. split; [discriminate|]. split; [reflexivity|].
  split; [reflexivity|]. split; [reflexivity|]. split; [reflexivity|]. split; [reflexivity|]. intros s [<-|[]]. reflexivity.
Qed.

(** * Files *)
Lemma text_total a b : text_le a b = false -> text_le b a = true.
Proof. unfold text_le. rewrite (String.compare_antisym a b). destruct (String.compare b a); cbn; easy. Qed.
Definition in_order {A} (l : list (string * A)) : Prop := Sorted (fun a b => text_le (fst a) (fst b) = true) l.
Lemma insert_sorted_ {A} (x : string * A) l : in_order l -> in_order (insert_text x l).
Proof.
  unfold in_order. induction l as [|y l IH]; intros H; cbn [insert_text]; [repeat constructor|].
  destruct (text_le (fst x) (fst y)) eqn:E.
  - constructor; [exact H|]. now constructor.
  - inversion H as [|? ? H1 H2]; subst. constructor; [now apply IH|].
    destruct l as [|z l]; cbn [insert_text]; [constructor; now apply text_total|].
    destruct (text_le (fst x) (fst z)); constructor; [now apply text_total|]. now inversion H2.
Qed.
Lemma insert_in {A} (x y : string * A) l : In y (insert_text x l) <-> x = y \/ In y l.
Proof.
  induction l as [|z l IH]; cbn [insert_text]; [easy|]. destruct (text_le (fst x) (fst z)); [easy|].
  cbn [In]. rewrite IH. tauto.
Qed.
Lemma order_in {A} (y : string * A) l : In y (fraction_order l) <-> In y l.
Proof. unfold fraction_order. induction l as [|x l IH]; [easy|]. cbn [fold_right]. rewrite insert_in, IH. easy. Qed.
Lemma order_sorted {A} (l : list (string * A)) : in_order (fraction_order l).
Proof. unfold fraction_order. induction l as [|x l IH]; [constructor|]. cbn [fold_right]. now apply insert_sorted_. Qed.
Lemma store_in {A} (d : list (string * A)) k v x w : NoDup (map fst d) ->
  In (x, w) (store d k v) <-> (x = k /\ w = v) \/ (x <> k /\ In (x, w) d).
Proof.
  induction d as [|[a b] d IH]; intros N; cbn [store].
  - split; [intros [[= <- <-]|[]]; now left|intros [[-> ->]|[_ []]]; now left].
  - inversion N as [|? ? N1 N2]; subst. destruct (String.eqb_spec a k) as [->|Na].
    + cbn [In]. split.
      * intros [[= <- <-]|H]; [now left|]. right. split; [|now right]. intros ->. apply N1. apply in_map_iff. now exists (k, w).
      * intros [[-> ->]|[Nx [[= <- <-]|H]]]; [now left|congruence|now right].
    + cbn [In]. rewrite (IH N2). split.
      * intros [[= <- <-]|[H|[H1 H2]]]; [right; split; [congruence|now left]|now left|right; split; [exact H1|now right]].
      * intros [H|[H1 [H2|H2]]]; [right; now left|now left|right; right; now split].
Qed.
Lemma store_nodup {A} (d : list (string * A)) k v : NoDup (map fst d) -> NoDup (map fst (store d k v)).
Proof.
  intros N. induction d as [|[a b] d IH]; cbn [store]; [repeat constructor; easy|].
  inversion N as [|? ? N1 N2]; subst. destruct (String.eqb_spec a k) as [->|Na]; [exact N|]. cbn [map fst]. constructor; [|now apply IH].
  intros H. apply in_map_iff in H. destruct H as ([x w] & Hx & H). cbn in Hx. subst x. apply (store_in d k v a w N2) in H.
  destruct H as [[H _]|[_ H]]; [congruence|]. apply N1. apply in_map_iff. now exists (a, w).
Qed.
Lemma insert_nodup {A} (x : string * A) l : ~ In (fst x) (map fst l) -> NoDup (map fst l) -> NoDup (map fst (insert_text x l)).
Proof.
  intros H N. induction l as [|y l IH]; cbn [insert_text]; [now constructor|].
  destruct (text_le (fst x) (fst y)); [now constructor|]. inversion N as [|? ? N1 N2]; subst. cbn [map]. constructor.
  - intros K. apply in_map_iff in K. destruct K as (z & Hz & K). apply insert_in in K. destruct K as [<-|K]; [apply H; left; now rewrite Hz|].
    apply N1. apply in_map_iff. now exists z.
  - apply IH; [|exact N2]. intros K. apply H. now right.
Qed.
Lemma order_nodup {A} (l : list (string * A)) : NoDup (map fst l) -> NoDup (map fst (fraction_order l)).
Proof.
  unfold fraction_order. induction l as [|x l IH]; intros N; [constructor|]. inversion N as [|? ? N1 N2]; subst. cbn [fold_right].
  apply insert_nodup; [|now apply IH]. intros K. apply N1. apply in_map_iff in K. destruct K as (z & Hz & K). apply in_map_iff. exists z. split; [exact Hz|]. apply (order_in z l). exact K.
Qed.
Lemma opt_dec (a : option string) (x : string) : {a = Some x} + {a <> Some x}.
Proof. destruct a as [y|]; [destruct (string_dec y x); [left|right]; congruence|right; discriminate]. Qed.
Section FilesProps.
Context (guess : string -> option string).
Lemma gather_spec names : forall d r, NoDup (map fst d) -> gather guess names d = Ok r ->
  NoDup (map fst r) /\ Forall (fun f => exists x, guess f = Some x) names /\
  forall x f, In (x, f) r <->
    (exists a b, names = a ++ f :: b /\ guess f = Some x /\ Forall (fun g => guess g <> Some x) b) \/
    (In (x, f) d /\ Forall (fun g => guess g <> Some x) names).
Proof.
  induction names as [|n names IH]; intros d r N E; cbn [gather] in E.
  - injection E as <-. split; [exact N|]. split; [constructor|]. intros x f. split; [intros H; right; now split|].
    intros [(a & b & H & _)|[H _]]; [destruct a; discriminate H|exact H].
  - destruct (guess n) as [y|] eqn:G; [|discriminate E]. destruct (IH _ _ (store_nodup d y n N) E) as (R1 & R2 & R3).
    split; [exact R1|]. split; [constructor; [now exists y|exact R2]|]. intros x f. rewrite R3, (store_in d y n x f N). split.
    + intros [(a & b & -> & H1 & H2)|[[[-> ->]|[Nx H]] K]].
      * left. exists (n :: a), b. easy.
      * left. exists [], names. easy.
      * right. split; [exact H|]. constructor; [congruence|exact K].
    + intros [(a & b & H & H1 & H2)|[H K]].
      * destruct a as [|z a]; cbn [app] in H.
        -- injection H as -> ->. right. split; [left; split; [congruence|reflexivity]|exact H2].
        -- injection H as -> ->. left. now exists a, b.
      * inversion K as [|? ? K1 K2]; subst. right. split; [|exact K2]. right. split; [congruence|exact H].
Qed.
(** Run as a program: the compositions are the numbers in the names of the files, each once, with
    the last file of that number, in the order of their texts. *)
Theorem C189_files : forall g names order, gather_files guess (Some g) names = Ok order ->
  NoDup (map fst order) /\ in_order order /\
  (forall f, In f names -> exists x f', guess f = Some x /\ In (x, f') order) /\
  (forall x f, In (x, f) order <-> exists a b, names = a ++ f :: b /\ guess f = Some x /\ Forall (fun h => guess h <> Some x) b).
Proof.
  intros g names order E.
  assert (E' : bindR (gather guess names []) (fun d => Ok (fraction_order d)) = Ok order) by (destruct names; exact E). clear E.
  destruct (gather guess names []) as [d|e] eqn:D; cbn [bindR] in E'; [|discriminate E']. injection E' as <-.
  destruct (gather_spec names [] d (NoDup_nil _) D) as (R1 & R2 & R3).
  assert (R4 : forall x f, In (x, f) (fraction_order d) <-> exists a b, names = a ++ f :: b /\ guess f = Some x /\ Forall (fun h => guess h <> Some x) b).
  { intros x f. rewrite order_in, R3. split; [intros [H|[[] _]]; exact H|intros H; now left]. }
  split; [now apply order_nodup|]. split; [apply order_sorted|]. split; [|exact R4].
  intros f Hf. assert (X : exists x, guess f = Some x) by (rewrite Forall_forall in R2; now apply R2). destruct X as [x X]. exists x.
  assert (Y : exists f', exists a b, names = a ++ f' :: b /\ guess f' = Some x /\ Forall (fun h => guess h <> Some x) b).
  { clear - Hf X. induction names as [|n names IH]; [destruct Hf|]. destruct (in_dec string_dec f names) as [I|I].
    - destruct (IH I) as (f' & a & b & -> & H). exists f', (n :: a), b. easy.
    - assert (W : (exists f', exists a b, names = a ++ f' :: b /\ guess f' = Some x /\ Forall (fun h => guess h <> Some x) b) \/ Forall (fun h => guess h <> Some x) names).
      { clear. induction names as [|m names IH]; [right; constructor|]. destruct IH as [(f' & a & b & -> & H)|H].
        - left. exists f', (m :: a), b. easy.
        - destruct (opt_dec (guess m) x) as [Y|Y]; [left; now exists m, [], names|right; now constructor]. }
      destruct W as [(f' & a & b & -> & H)|H]; [exists f', (n :: a), b; easy|]. destruct Hf as [Hf|Hf]; [|contradiction]. subst n. exists f, [], names. split; [reflexivity|]. split; [exact X|exact H]. }
  destruct Y as (f' & Y). exists f'. split; [exact X|]. now apply R4.
Qed.
(** Imported as a module, the class cannot be made for any folder with a file of data. *)
Theorem C189_library_refuted : forall names, names <> [] -> gather_files guess None names = Err NameError.
Proof. intros [|n names] H; [easy|reflexivity]. Qed.
End FilesProps.
(** The order is that of texts: ten percent come before five. *)
Theorem C189_order_refuted : exists guess g names a b, gather_files guess (Some g) names = Ok [("10", a); ("5", b)]%string.
Proof.
  exists (fun f => if String.eqb f "k_10.txt" then Some "10"%string else Some "5"%string), "k"%string, ["k_10.txt"; "k_5.txt"]%string, "k_10.txt"%string, "k_5.txt"%string. reflexivity.
Qed.

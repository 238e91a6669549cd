(** Property C187 about the absorption of one junction on its own. *)
From Coq Require Import Reals String List Arith Bool Lra Lia.
From Coquelicot Require Import Coquelicot.
From Coq Require Import List.
From Verif Require Import Common InterpModel InterpProps NpModel BeerLambertModel BeerLambertProps DetBalModel JAbsModel.
Import ListNotations.
Open Scope R_scope.
Open Scope list_scope.

(** * Specification *)
(** Optical depth and thickness of the layers above layer [i]. *)
Definition above (es : list (R * R)) (i : nat) : R := fold_right Rplus 0 (map fst (firstn i es)).
Definition depth_above (es : list (R * R)) (i : nat) : R := fold_right Rplus 0 (map (fun e => fst e * snd e) (firstn i es)).
(** Light intensity at depth [z] inside layer [i], per unit of incident light. *)
Definition intensity (es : list (R * R)) (i : nat) (z : R) : R :=
  exp (- (depth_above es i + snd (nth i es (0, 0)) * (z - above es i))).

(** * The two routines agree inside the junction *)
Lemma psums_app l x : forall a, psums a (l ++ [x]) = psums a l ++ [a + total l + x].
Proof.
  induction l as [|y l IH]; intros a; cbn [psums app].
  - replace (a + total [] + x) with (a + x) by (unfold total; cbn; lra). easy.
  - rewrite IH. replace (a + y + total l + x) with (a + total (y :: l) + x) by (unfold total; cbn; lra). easy.
Qed.
Lemma split_back es : es <> [] -> es = removelast es ++ [back es].
Proof. intros N. now apply app_removelast_last. Qed.
Lemma cum_starts es : es <> [] -> cum_widths es = starts es ++ [last_ (cum_widths es)].
Proof.
  intros N. unfold cum_widths at 1. rewrite (split_back es N) at 1. rewrite map_app. cbn [map]. rewrite psums_app.
  unfold starts. f_equal. f_equal. unfold cum_widths. rewrite psums_last.
  rewrite (split_back es N) at 3. rewrite map_app, total_app. unfold total at 3. cbn. lra.
Qed.
Lemma last_cum es : es <> [] -> last_ (cum_widths es) = last_ (starts es) + fst (back es).
Proof.
  intros N. unfold cum_widths, starts. rewrite !psums_last. rewrite (split_back es N) at 1. rewrite map_app, total_app. unfold total at 2. cbn. lra.
Qed.
Lemma OD_depths es : es <> [] -> OD es = depths es ++ [last_ (OD es)].
Proof.
  intros N. unfold OD at 1. rewrite (split_back es N) at 1. rewrite map_app. cbn [map]. rewrite psums_app.
  unfold depths. f_equal. f_equal. unfold OD. rewrite psums_last.
  rewrite (split_back es N) at 4. rewrite map_app, total_app. unfold total at 3. cbn. lra.
Qed.
Lemma last_OD es : es <> [] -> last_ (OD es) = last_ (depths es) + snd (back es) * fst (back es).
Proof.
  intros N. unfold OD, depths. rewrite !psums_last. rewrite (split_back es N) at 1. rewrite map_app, total_app. unfold total at 2. cbn. lra.
Qed.
Lemma searchsorted_app l t z : ~ t < z -> searchsorted (l ++ [t]) z = searchsorted l z.
Proof. intros N. induction l as [|x l IH]; cbn; destruct Rlt_dec; try easy. now rewrite IH. Qed.
Lemma removelast_length {A} (l : list A) : length (removelast l) = (length l - 1)%nat.
Proof. induction l as [|x l IH]; [easy|]. destruct l; [easy|]. change (removelast (x :: a :: l)) with (x :: removelast (a :: l)). cbn [length] in *. lia. Qed.
Lemma row_prof es f z : es <> [] -> Forall pos_entry es -> row es z * f = prof es f z.
Proof.
  intros N H. unfold row, prof, too_far. rewrite (last_cum es N). destruct Rlt_dec as [L|L]; [|ring].
  rewrite <- (last_cum es N) in L.
  assert (O : owner es z = layer_index es z).
  { unfold owner, layer_index. rewrite (cum_starts es N), searchsorted_app; [easy|lra]. }
  rewrite O. cbv zeta.
  assert (I := index_inside es z N H (Rlt_le _ _ L)).
  assert (LS : (layer_index es z < length (starts es))%nat) by (unfold starts; rewrite psums_length, map_length, removelast_length; lia).
  assert (LD : (layer_index es z < length (depths es))%nat) by (unfold depths; rewrite psums_length, map_length, removelast_length; lia).
  rewrite (OD_depths es N), (cum_starts es N), !app_nth1 by easy. ring.
Qed.
Lemma rows_nth es f zs z d : (d < length zs - 1)%nat -> nth d zs 0 = z -> nth d (junction_rows es f zs) 0 = row es z * f.
Proof.
  intros Hd Hz. unfold junction_rows.
  assert (L : length (firstn (length zs - 1) zs) = (length zs - 1)%nat) by (rewrite firstn_length; lia).
  rewrite (nth_indep _ 0 (0 * f)) by (rewrite map_length, app_length, map_length, L, repeat_length; lia).
  rewrite (map_nth (fun v => v * f)). rewrite app_nth1 by (rewrite map_length, L; lia).
  rewrite (nth_indep _ 0 (row es 0)) by (rewrite map_length, L; lia).
  rewrite (map_nth (row es)). f_equal. f_equal.
  rewrite <- Hz.
  assert (F : forall n (l : list R) k, (k < n)%nat -> nth k (firstn n l) 0 = nth k l 0).
  { induction n as [|n IH]; intros [|x l] [|k] Hk; cbn; try lia; try easy. apply IH. lia. }
  apply F. lia.
Qed.
Lemma rows_length es f zs : length (junction_rows es f zs) = length zs.
Proof. unfold junction_rows. rewrite map_length, app_length, map_length, firstn_length, repeat_length. lia. Qed.

(** Every depth but the last gets the absorption coefficient times the intensity
    left by the layers above, and nothing behind the junction; the array has one entry
    per depth. *)
Theorem C187_profile : forall es f g t zs, Forall pos_entry es -> absorptance_layers es f = Ok (g, t) ->
  length (g zs) = length zs /\
  forall d, (S d < length zs)%nat ->
    (forall i, (i < length es)%nat -> above es i < nth d zs 0 -> nth d zs 0 < above es (S i) ->
       nth d (g zs) 0 = f * snd (nth i es (0, 0)) * intensity es i (nth d zs 0)) /\
    (above es (length es) <= nth d zs 0 -> nth d (g zs) 0 = 0).
Proof.
  intros es f g t zs H E.
  assert (N : es <> []) by (intros ->; discriminate E).
  assert (G : g = junction_rows es f) by (destruct es; [easy|]; cbn in E; congruence). rewrite G. clear G E g t.
  split; [apply rows_length|]. intros d Hd. rewrite (rows_nth es f zs (nth d zs 0) d ltac:(lia) eq_refl), (row_prof es f _ N H).
  assert (P : forall i, (i <= length es)%nat -> at_ (cum_widths es) i = above es i).
  { intros i Hi. unfold cum_widths, above. rewrite psums_nth by (rewrite map_length; lia). rewrite firstn_map. unfold total. lra. }
  assert (Q : forall i, (i <= length es)%nat -> at_ (OD es) i = depth_above es i).
  { intros i Hi. unfold OD, depth_above. rewrite psums_nth by (rewrite map_length; lia). rewrite firstn_map. unfold total. rewrite Rplus_0_l. f_equal. apply map_ext. intros; ring. }
  assert (T : last_ (cum_widths es) = above es (length es)).
  { rewrite last_nth, cum_length. replace (S (length es) - 1)%nat with (length es) by lia. now apply P. }
  split.
  - intros i Hi A B. unfold prof. rewrite T.
    assert (M : above es (S i) <= above es (length es)).
    { rewrite <- !P by lia. apply increasing_le; [now apply cum_increasing|rewrite cum_length; lia]. }
    destruct Rlt_dec as [_|]; [|lra].
    assert (LI : layer_index es (nth d zs 0) = i) by (apply layer_index_cell; [easy|easy|rewrite !P by lia; lra]).
    cbv zeta. rewrite LI, Q, P by lia. unfold intensity.
    replace (- depth_above es i - snd (nth i es (0, 0)) * (nth d zs 0 - above es i)) with (- (depth_above es i + snd (nth i es (0, 0)) * (nth d zs 0 - above es i))) by ring. ring.
  - intros A. unfold prof. rewrite T. destruct Rlt_dec; [lra|easy].
Qed.
Example C187_profile_ex : exists g t, absorptance_layers [(1, 2); (2, 1)] (1 / 2) = Ok (g, t) /\
  nth 1 (g [0; 2; 3]) 0 = 1 / 2 * 1 * exp (- (2 + 1)) /\ nth 1 (g [0; 5; 6]) 0 = 0.
Proof.
  eexists _, _. split; [reflexivity|].
  assert (H : Forall pos_entry [(1, 2); (2, 1)]) by (repeat constructor; unfold pos_entry; cbn; lra).
  split.
  - destruct (C187_profile [(1, 2); (2, 1)] (1 / 2) _ _ [0; 2; 3] H eq_refl) as [_ K].
    destruct (K 1%nat ltac:(cbn; lia)) as [K1 _]. rewrite (K1 1%nat); [|cbn; lia|unfold above; cbn; lra|unfold above; cbn; lra].
    unfold intensity, depth_above, above. cbn. repeat f_equal; lra.
  - destruct (C187_profile [(1, 2); (2, 1)] (1 / 2) _ _ [0; 5; 6] H eq_refl) as [_ K].
    destruct (K 1%nat ltac:(cbn; lia)) as [_ K1]. apply K1. unfold above; cbn; lra.
Qed.

(** The profile seen through the first of two depths integrates to the light that
    does not reach the back: incident light times (1 - the transmission returned). *)
Theorem C187_absorbed : forall es f g t, Forall pos_entry es -> absorptance_layers es f = Ok (g, t) ->
  (forall w, is_RInt (fun z => nth 0 (g [z; w]) 0) 0 (above es (length es)) (f * (1 - t))) /\
  t = exp (- depth_above es (length es)).
Proof.
  intros es f g t H E.
  assert (N : es <> []) by (intros ->; discriminate E).
  assert (G : g = junction_rows es f /\ t = junction_trans es) by (destruct es; [easy|]; cbn in E; split; congruence). destruct G as [-> ->].
  assert (T : junction_trans es = exp (- depth_above es (length es))).
  { unfold junction_trans. replace (- last_ (depths es) - snd (back es) * fst (back es)) with (- last_ (OD es)) by (rewrite (last_OD es N); ring).
    unfold OD, depth_above. rewrite psums_last, firstn_all. unfold total. rewrite Rplus_0_l. do 3 f_equal. apply map_ext. intros; ring. }
  split; [|exact T]. intros w.
  apply (is_RInt_ext (prof es f)).
  - intros z _. rewrite (rows_nth es f [z; w] z 0); [|cbn; lia|easy]. now rewrite row_prof.
  - assert (K := prof_range es f 0 (length es) H ltac:(lia)). rewrite cum_0, OD_0, Ropp_0, exp_0 in K.
    assert (A : at_ (cum_widths es) (length es) = above es (length es)).
    { unfold cum_widths, above. rewrite psums_nth by (rewrite map_length; lia). rewrite firstn_map. unfold total. lra. }
    assert (B : at_ (OD es) (length es) = depth_above es (length es)).
    { unfold OD, depth_above. rewrite psums_nth by (rewrite map_length; lia). rewrite firstn_map. unfold total. rewrite Rplus_0_l. f_equal. apply map_ext. intros; ring. }
    rewrite A, B in K. rewrite T. exact K.
Qed.

(** The last depth asked for always gets zero, so a query of a single depth tells
    nothing, although the light there is not zero. *)
Theorem C187_last_refuted :
  (forall es f g t zs z, absorptance_layers es f = Ok (g, t) -> last (g (zs ++ [z])) 0 = 0) /\
  exists es z g t, absorptance_layers es 1 = Ok (g, t) /\ Forall pos_entry es /\ 0 < z < above es (length es) /\
    g [z] = [0] /\ nth 0 (g [z; z]) 0 > 0.
Proof.
  split.
  - intros es f g t zs z E. assert (G : g = junction_rows es f) by (destruct es; [easy|]; cbn in E; congruence). rewrite G.
    unfold junction_rows. rewrite app_length. cbn [length].
    replace (length zs + 1 - (length zs + 1 - 1))%nat with 1%nat by lia. cbn [repeat]. rewrite map_app. cbn [map]. rewrite last_last. ring.
  - assert (H : Forall pos_entry [(2, 1)]) by (repeat constructor; unfold pos_entry; cbn; lra).
    exists [(2, 1)], 1, (junction_rows [(2, 1)] 1), (junction_trans [(2, 1)]). split; [reflexivity|]. split; [exact H|]. split; [unfold above; cbn; lra|].
    split; [unfold junction_rows; cbn; f_equal; ring|].
    destruct (C187_profile [(2, 1)] 1 _ _ [1; 1] H eq_refl) as [_ K]. destruct (K 0%nat ltac:(cbn; lia)) as [K1 _].
    rewrite (K1 0%nat); [|cbn; lia|unfold above; cbn; lra|unfold above; cbn; lra].
    cbn [nth snd]. assert (P := exp_pos (- (depth_above [(2, 1)] 0 + snd (nth 0 [(2, 1)] (0, 0)) * (1 - above [(2, 1)] 0)))). unfold intensity. lra.
Qed.

(** Absorbed and transmitted light do not add up to the incident light unless all of
    it enters: the transmission is not scaled by the fraction. *)
Theorem C187_balance : forall es f g t A, Forall pos_entry es -> absorptance_layers es f = Ok (g, t) ->
  (forall w, is_RInt (fun z => nth 0 (g [z; w]) 0) 0 (above es (length es)) A) -> (A + t = f <-> f = 1).
Proof.
  intros es f g t A H E I. destruct (C187_absorbed es f g t H E) as [J T].
  assert (U := is_RInt_unique _ _ _ _ (I 0)). rewrite (is_RInt_unique _ _ _ _ (J 0)) in U. rewrite <- U.
  assert (0 < t) by (rewrite T; apply exp_pos). split; [|intros ->; ring]. intros K. nra.
Qed.
Theorem C187_balance_refuted : exists es g t A, Forall pos_entry es /\ absorptance_layers es (1 / 2) = Ok (g, t) /\
  (forall w, is_RInt (fun z => nth 0 (g [z; w]) 0) 0 (above es (length es)) A) /\ A + t <> 1 / 2 /\ t > 1 / 2.
Proof.
  assert (H : Forall pos_entry [(1, 1 / 2)]) by (repeat constructor; unfold pos_entry; cbn; lra).
  destruct (C187_absorbed [(1, 1 / 2)] (1 / 2) (junction_rows [(1, 1 / 2)] (1 / 2)) (junction_trans [(1, 1 / 2)]) H eq_refl) as [J T].
  exists [(1, 1 / 2)], (junction_rows [(1, 1 / 2)] (1 / 2)), (junction_trans [(1, 1 / 2)]), (1 / 2 * (1 - junction_trans [(1, 1 / 2)])).
  split; [exact H|]. split; [reflexivity|]. split; [exact J|].
  assert (B : junction_trans [(1, 1 / 2)] > 1 / 2).
  { rewrite T. unfold depth_above. cbn. assert (X := exp_ineq1 (- (1 * (1 / 2) + 0)) ltac:(lra)). lra. }
  lra.
Qed.

(** * A junction of kind DB *)
(** The function returned is the absorptance times the light interpolated between the
    wavelengths given; outside them the light is that of the nearest one; and the
    absorbed light is between zero and the light when the absorptance is. *)
Lemma flat_inv j wl fr j1 h t : absorptance_flat j wl fr = Ok (j1, h, t) ->
  exists A, absorptance_db j = Ok j1 /\ b_absorptance j1 = Some A /\ fr <> [] /\ length wl = length fr /\
    h = (fun x => A x * np_interp wl fr x) /\ t = map h wl.
Proof.
  unfold absorptance_flat. destruct (absorptance_db j) as [j2|e]; cbn [bindR]; [|discriminate].
  destruct (b_absorptance j2) as [A|] eqn:EA; cbn [attr bindR]; [|discriminate].
  destruct fr as [|x fr]; [discriminate|]. destruct (Nat.eqb_spec (length wl) (length (x :: fr))) as [L|]; [|discriminate].
  intros [= <- <- <-]. exists A. easy.
Qed.
Theorem C187_flat : forall j wl fr j1 h t, increasing wl -> absorptance_flat j wl fr = Ok (j1, h, t) ->
  exists A, b_absorptance j1 = Some A /\
    (forall k, (k < length wl)%nat -> h (nth k wl 0) = A (nth k wl 0) * nth k fr 0) /\
    (forall x, x < nth 0 wl 0 -> h x = A x * nth 0 fr 0) /\
    (forall x, nth (length wl - 1) wl 0 <= x -> h x = A x * nth (length wl - 1) fr 0) /\
    (forall x, 0 <= A x <= 1 -> (forall k, (k < length fr)%nat -> 0 <= nth k fr 0 <= 1) -> 0 <= h x <= 1) /\
    (forall B, b_absorptance j = Some B -> A = B).
Proof.
  intros j wl fr j1 h t Hw E. destruct (flat_inv _ _ _ _ _ _ E) as (A & E1 & EA & NF & L & -> & ->).
  assert (LW : (1 <= length wl)%nat) by (destruct fr; [easy|]; cbn in L; lia).
  exists A. split; [exact EA|]. split; [intros k Hk; now rewrite np_interp_node|].
  assert (W := fun x => np_interp_weights wl x (increasing_nondecreasing _ Hw) LW).
  split; [|split; [|split]].
  - intros x Hx. destruct (W x) as (i & k & w & Hi & Hk & _ & Hww & F & _ & Lo & _). destruct (Lo Hx) as [-> ->]. rewrite F. ring.
  - intros x Hx. destruct (W x) as (i & k & w & Hi & Hk & _ & Hww & F & _ & _ & Up). destruct (Up Hx) as [-> ->]. rewrite F. ring.
  - intros x HA Hf. destruct (W x) as (i & k & w & Hi & Hk & _ & Hww & F & _ & _ & _). rewrite F.
    assert (F1 := Hf i ltac:(lia)). assert (F2 := Hf k ltac:(lia)).
    assert (0 <= (1 - w) * at_ fr i + w * at_ fr k <= 1) by nra. nra.
  - intros B EB. unfold absorptance_db in E1. rewrite EB in E1. injection E1 as ->. congruence.
Qed.
(** Light of 1 and of 1/2 at two wavelengths, the absorptance 4/5 given beforehand. *)
Example C187_flat_ex : exists j1 h t,
  absorptance_flat {| b_Eg := None; b_n := None; b_A := None; b_Rsh := None; b_width := None; b_absorptance := Some (fun _ => 4 / 5);
     b_eqe := None; b_absorbed := None; b_reflected := None; b_j01 := None |} [1; 2] [1; 1 / 2] = Ok (j1, h, t) /\
  increasing [1; 2] /\ h 2 = 2 / 5 /\ h 0 = 4 / 5 /\ h 7 = 2 / 5.
Proof.
  eexists _, _, _. split; [reflexivity|].
  assert (I : increasing [1; 2]) by (intros i k Hik; cbn in Hik; destruct i as [|[|i]], k as [|[|k]]; try lia; cbn; lra).
  split; [exact I|].
  destruct (C187_flat {| b_Eg := None; b_n := None; b_A := None; b_Rsh := None; b_width := None; b_absorptance := Some (fun _ => 4 / 5);
     b_eqe := None; b_absorbed := None; b_reflected := None; b_j01 := None |} [1; 2] [1; 1 / 2] _ _ _ I eq_refl) as (A & EA & N & Lo & Up & _).
  injection EA as <-. split; [|split].
  - assert (X := N 1%nat ltac:(cbn; lia)). cbn [nth] in X. rewrite X. lra.
  - assert (X := Lo 0 ltac:(cbn; lra)). cbn [nth] in X. rewrite X. lra.
  - assert (X := Up 7 ltac:(cbn; lra)). cbn [nth length] in X. rewrite X. cbn. lra.
Qed.
(** What is returned as transmitted is the absorbed light at the wavelengths given:
    with full absorption nothing can be transmitted, yet everything is reported. *)
Theorem C187_flat_trans_refuted :
  (forall j wl fr j1 h t, absorptance_flat j wl fr = Ok (j1, h, t) -> t = map h wl) /\
  exists j wl fr j1 h t, absorptance_flat j wl fr = Ok (j1, h, t) /\ t = fr /\ nth 0 fr 0 > 0 /\
    (forall x, In x wl -> exists A, b_absorptance j1 = Some A /\ A x = 1).
Proof.
  split; [intros j wl fr j1 h t E; now destruct (flat_inv _ _ _ _ _ _ E) as (A & _ & _ & _ & _ & _ & ->)|].
  exists {| b_Eg := None; b_n := None; b_A := None; b_Rsh := None; b_width := None; b_absorptance := Some (fun _ => 1);
     b_eqe := None; b_absorbed := None; b_reflected := None; b_j01 := None |}, [1; 2], [1; 1 / 2].
  eexists _, _, _. split; [reflexivity|]. split; [|split; [cbn; lra|]].
  - assert (I : increasing [1; 2]) by (intros i k Hik; cbn in Hik; destruct i as [|[|i]], k as [|[|k]]; try lia; cbn; lra).
    assert (X0 := np_interp_node [1; 2] [1; 1 / 2] 0 I ltac:(cbn; lia)).
    assert (X1 := np_interp_node [1; 2] [1; 1 / 2] 1 I ltac:(cbn; lia)).
    change (np_interp [1; 2] [1; 1 / 2] 1 = 1) in X0. change (np_interp [1; 2] [1; 1 / 2] 2 = 1 / 2) in X1.
    cbn [map]. rewrite X0, X1. now rewrite !Rmult_1_l.
  - intros x _. exists (fun _ => 1). easy.
Qed.

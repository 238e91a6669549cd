(** C147: how [solve_tmm] splits the incident light between the elements of a solar cell. *)
From Coq Require Import Reals String List Arith Bool Lra Lia Psatz.
From Coquelicot Require Import Complex.
From Verif Require Import Common InterpModel NpModel TmmModel TmmProps TmmLayersModel IncModel IncProps StackModel RatModel.
From Coq Require Import List.
Import ListNotations.
Open Scope R_scope.
Open Scope list_scope.

(** * What a cell is, optically *)
Definition members (o : obj) : list lay :=
  match o with OLayer l => [l] | OJunction ls | OTunnel ls => ls | OOther => [] end.
Definition known (p : nat * obj) : Prop := snd p <> OOther.
Definition layers_of (c : cell) : list lay := concat (map (fun p => members (snd p)) c).
Definition index_of (wl : R) (l : lay) : C := (l_n l wl + l_k l wl * Ci)%C.
(** The layer, 1 mm of the material of the last layer with enough absorption, that stands for
    a back that does not reflect. *)
Definition absorber (wl : R) (l : lay) : C := (l_n l wl + Rmax (1000 * wl) (l_k l wl) * Ci)%C.
Definition optical (o : outer) (c : cell) (wl : R) : list (C * R) :=
  map (fun l => (index_of wl l, l_width l * 10 ^ 9)) (layers_of c) ++
  (if o_noback o then match rev (layers_of c) with [] => [] | l :: _ => [(absorber wl l, 10 ^ 6)] end else []).

(** * The stack *)
Lemma add_solcore : forall ls s,
  let s' := add_layers s (map (fun l => LSolcore (l_width l * 10 ^ 9) (l_n l) (l_k l)) ls) in
  st_widths s' = st_widths s ++ map (fun l => l_width l * 10 ^ 9) ls /\
  st_n s' = st_n s ++ map (fun l => NFun (l_n l)) ls /\
  st_k s' = st_k s ++ map (fun l => KFun (l_k l)) ls /\
  st_num s' = (st_num s + length ls)%nat.
Proof.
  induction ls as [|l ls IH]; intros s; cbn [map add_layers add_one].
  - now rewrite !app_nil_r, Nat.add_0_r.
  - destruct (IH (count (push_k (push_n (push_model (push_width (remember s (LSolcore (l_width l * 10 ^ 9) (l_n l) (l_k l)))
        (l_width l * 10 ^ 9)) None) (NFun (l_n l))) (KFun (l_k l))))) as (E1 & E2 & E3 & E4).
    rewrite E1, E2, E3, E4. cbn [st_widths st_n st_k st_num count push_k push_n push_model push_width remember].
    rewrite <- !app_assoc. cbn [app length]. repeat split. lia.
Qed.
Lemma full_stack_fields ls :
  st_widths (full_stack ls) = map (fun l => l_width l * 10 ^ 9) ls /\
  st_n (full_stack ls) = map (fun l => NFun (l_n l)) ls /\
  st_k (full_stack ls) = map (fun l => KFun (l_k l)) ls /\
  st_num (full_stack ls) = length ls.
Proof. destruct (add_solcore ls empty_stack) as (E1 & E2 & E3 & E4). cbn in E4. now repeat split. Qed.
Lemma loop_solcore s x : forall ls,
  indices_loop s x (map (fun l => NFun (l_n l)) ls) (map (fun l => KFun (l_k l)) ls) (length ls)
  = Ok (map (index_of x) ls).
Proof. induction ls as [|l ls IH]; [reflexivity|]. cbn. rewrite IH. reflexivity. Qed.
Lemma indices_optical o c wl : (o_noback o = true -> layers_of c <> []) ->
  get_indices o (full_stack (layers_of c)) (wl * 10 ^ 9)
  = Ok (stack_n (n_front o wl) (optical o c wl) (n_back o wl)).
Proof.
  intros Hn. destruct (full_stack_fields (layers_of c)) as (_ & E2 & E3 & E4).
  unfold get_indices. rewrite E2, E3, E4. cbv zeta.
  replace (nm (wl * 10 ^ 9)) with wl by (unfold nm; field; lra).
  rewrite loop_solcore. cbn [bindR]. unfold optical, stack_n.
  destruct (o_noback o) eqn:En.
  - specialize (Hn eq_refl). destruct (rev (layers_of c)) as [|l r] eqn:Er.
    { exfalso. apply Hn. rewrite <- (rev_involutive (layers_of c)), Er. reflexivity. }
    rewrite <- map_rev, Er. cbn [map eval_n].
    unfold k_absorbing. rewrite E3, <- map_rev, Er. cbn [map eval_k bindR].
    replace (wl / / 10 ^ 3) with (1000 * wl) by (field; lra).
    rewrite map_app, map_map. cbn [map fst]. rewrite <- app_assoc. reflexivity.
  - rewrite app_nil_r, map_map. reflexivity.
Qed.
Lemma widths_optical o c wl : (o_noback o = true -> layers_of c <> []) ->
  get_widths o (full_stack (layers_of c)) = stack_d (optical o c wl).
Proof.
  intros Hn. destruct (full_stack_fields (layers_of c)) as (E1 & _).
  unfold get_widths, optical, stack_d. rewrite E1. destruct (o_noback o) eqn:En.
  - specialize (Hn eq_refl). destruct (rev (layers_of c)) as [|l r] eqn:Er.
    { exfalso. apply Hn. rewrite <- (rev_involutive (layers_of c)), Er. reflexivity. }
    rewrite map_app, !map_map. cbn [map snd]. rewrite <- app_assoc. reflexivity.
  - rewrite app_nil_r, !map_map. reflexivity.
Qed.

(** * The bookkeeping *)
Lemma collect_spec : forall (c : cell), Forall known c ->
  collect (map snd c) = (layers_of c, map (fun p => length (members (snd p))) c).
Proof.
  intros c H. unfold collect.
  assert (G : forall acc, fold_left (fun acc o =>
    match o with
    | OLayer l => (fst acc ++ [l], snd acc ++ [1%nat])
    | OJunction ls | OTunnel ls => (fst acc ++ ls, snd acc ++ [length ls])
    | OOther => acc
    end) (map snd c) acc = (fst acc ++ layers_of c, snd acc ++ map (fun p => length (members (snd p))) c)).
  { induction c as [|[i o] c IH]; intros acc; cbn [map fold_left].
    - unfold layers_of. cbn. rewrite !app_nil_r. now destruct acc.
    - rewrite IH by exact (Forall_inv_tail H). apply Forall_inv in H. unfold known in H. cbn [snd] in H.
      unfold layers_of. cbn [map concat snd].
      destruct o; try (now elim H); cbn [members length fst snd]; rewrite <- !app_assoc; reflexivity. }
  exact (G ([], [])).
Qed.
Lemma add_up_total l : add_up l = total l.
Proof.
  unfold add_up. assert (G : forall a, fold_left Rplus l a = a + total l).
  { induction l as [|x l IH]; intros a; cbn [fold_left total]; [lra|]. rewrite IH. lra. }
  rewrite G. lra.
Qed.
(** Cutting a list of absorptances into one piece for every element of the cell. *)
Definition pieces (c : cell) (As : list (list R)) : Prop :=
  Forall2 (fun p a => length a = length (members (snd p))) c As.
Lemma cut : forall (c : cell) (l : list R) k, length l = (length (layers_of c) + k)%nat ->
  exists As rest, l = concat As ++ rest /\ pieces c As /\ length rest = k.
Proof.
  induction c as [|[i o] c IH]; intros l k H.
  - exists [], l. repeat split; [constructor|exact H].
  - unfold layers_of in H. cbn [map concat snd] in H. rewrite app_length in H.
    destruct (IH (skipn (length (members o)) l) k) as (As & rest & E & P & K).
    { rewrite skipn_length. unfold layers_of. lia. }
    exists (firstn (length (members o)) l :: As), rest. split; [|split; [|exact K]].
    + cbn [concat]. rewrite <- app_assoc, <- E. symmetry. apply firstn_skipn.
    + constructor; [|exact P]. cbn [snd]. apply firstn_length_le. lia.
Qed.
Lemma shares_spec initial : forall (c : cell) As pre rest, pieces c As ->
  shares initial (pre ++ concat As ++ rest) (map (fun p => length (members (snd p))) c) (length pre) (map snd c)
  = Ok (map (fun a => initial * total a) As).
Proof.
  intros c As pre rest P. revert pre. induction P as [|p a c As H P IH]; intros pre; [reflexivity|].
  cbn [map shares concat].
  specialize (IH (pre ++ a)). rewrite app_length, H in IH. rewrite <- (app_assoc pre a) in IH.
  rewrite <- (app_assoc a). rewrite IH. cbn [bindR].
  rewrite skipn_app, skipn_all, Nat.sub_diag. cbn [app skipn].
  rewrite <- H, firstn_app, firstn_all, Nat.sub_diag. cbn [firstn]. rewrite app_nil_r, add_up_total. reflexivity.
Qed.
Lemma stored_distinct : forall ids xs, NoDup ids -> length ids = length xs -> map (stored ids xs) ids = xs.
Proof.
  intros ids xs. revert ids. 
  assert (Keep : forall ids (ys : list R) i a, ~ In i ids ->
    fold_left (fun a p => if (fst p =? i)%nat then snd p else a) (combine ids ys) a = a).
  { induction ids as [|j ids IH]; intros ys i a Hi; [reflexivity|]. destruct ys as [|y ys]; [reflexivity|].
    cbn [combine fold_left fst snd]. destruct (Nat.eqb_spec j i) as [->|N]; [exfalso; apply Hi; now left|].
    apply IH. intros F. apply Hi. now right. }
  assert (G : forall ids (ys : list R), NoDup ids -> length ids = length ys -> forall a,
    map (fun i => fold_left (fun a p => if (fst p =? i)%nat then snd p else a) (combine ids ys) a) ids = ys).
  { induction ids as [|j ids IH]; intros ys ND HL a; [destruct ys; [reflexivity|discriminate]|].
    destruct ys as [|y ys]; [discriminate|]. apply NoDup_cons_iff in ND. destruct ND as [Hj ND].
    cbn [map combine fold_left fst snd]. rewrite Nat.eqb_refl, Keep by exact Hj. f_equal.
    etransitivity; [|exact (IH ys ND ltac:(cbn in HL; lia) a)]. apply map_ext_in. intros i Hi.
    destruct (Nat.eqb_spec j i) as [->|N]; [contradiction|reflexivity]. }
  intros ids ND HL. exact (G ids xs ND HL 0).
Qed.

(** * The absorptances of the layers *)
(** Light of one polarisation, and the mean over both. *)
Definition single (pol : string) : Prop := pol = "s"%string \/ pol = "p"%string.
Definition mixed_light (pol : string) : Prop := ~ In pol ["s"; "p"; "sp"; ""]%string.
Lemma mixed_in_sp pol : mixed_light pol -> in_sp pol = false.
Proof.
  intros H. unfold in_sp. repeat match goal with |- context [String.eqb pol ?x] => destruct (String.eqb_spec pol x) end;
    try reflexivity; exfalso; apply H; subst; cbn; tauto.
Qed.
Lemma single_not_mixed pol : single pol -> mixed_light pol -> False.
Proof. intros [->| ->] H; apply H; cbn; tauto. Qed.
(** The treatment of all media, the semi-infinite ones and the absorber at the back included. *)
Definition kinds (noback : bool) (cl : list string) : list string :=
  "i"%string :: cl ++ (if noback then ["i"%string; "i"%string] else ["i"%string]).
Lemma padded_kinds noback cl : padded noback cl = kinds noback cl.
Proof. now destruct noback. Qed.
Definition by_layer (ns : list C) (ds : list (option R)) (th lam : R) (pol : string) (A : list R) : Prop :=
  exists d, coh_tmm pol ns ds (sin th) (cos th) lam = Ok d /\ absorp_in_each_layer d = Ok A.
Definition mean (a b : list R) (A : list R) : Prop :=
  length A = length a /\ length A = length b /\ forall i, nth i A 0 = (nth i a 0 + nth i b 0) / 2.
Definition absorptances (by_ : string -> list R -> Prop) (pol : string) (A : list R) : Prop :=
  (single pol /\ by_ pol A) \/
  (mixed_light pol /\ exists a b, by_ "s"%string a /\ by_ "p"%string b /\ mean a b A).
(** The polarisations that have to be calculated. *)
Definition needed (pol q : string) : Prop := (single pol /\ q = pol) \/ (mixed_light pol /\ valid_pol q).

Lemma single_in_sp pol : single pol -> in_sp pol = true.
Proof. now intros [->| ->]. Qed.
Lemma halves_mean p s : length p = length s -> mean s p (halves p s).
Proof.
  intros H. unfold mean, halves.
  rewrite !map_length, combine_length, <- H, Nat.min_id. repeat split; auto.
  intros i. revert s H i. induction p as [|x p IH]; intros [|y s] H i; try discriminate.
  - destruct i; cbn; lra.
  - destruct i as [|i]; cbn [combine map nth fst snd]; [lra|]. apply IH. cbn in H. lia.
Qed.
Lemma halves_total p s : length p = length s -> total (halves p s) = / 2 * (total p + total s).
Proof.
  revert s. induction p as [|x p IH]; intros [|y s] H; try discriminate; [cbn; lra|].
  unfold halves in *. cbn [combine map total fst snd]. rewrite IH by (cbn in H; lia). lra.
Qed.
Lemma halves_nonneg p s : Forall (fun x => 0 <= x) p -> Forall (fun x => 0 <= x) s ->
  Forall (fun x => 0 <= x) (halves p s).
Proof.
  intros H. revert s. induction H as [|x p Hx H IH]; intros s F; [constructor|].
  destruct F as [|y s Hy F]; [constructor|]. unfold halves. cbn [combine map fst snd].
  constructor; [lra|]. apply IH. exact F.
Qed.
Lemma bracketed (A : list R) m : length A = (m + 2)%nat ->
  exists mid, A = hd 0 A :: mid ++ [last A 0] /\ length mid = m.
Proof.
  intros H. destruct A as [|x A]; [cbn in H; lia|]. cbn [hd].
  destruct A as [|y A]; [cbn in H; lia|].
  destruct (@exists_last _ (y :: A) ltac:(discriminate)) as (mid & z & E).
  exists mid. replace (last (x :: y :: A) 0) with z.
  2:{ change (last (x :: y :: A) 0) with (last (y :: A) 0). rewrite E. symmetry. apply last_last. }
  rewrite E. split; [reflexivity|]. apply (f_equal (@length R)) in E. rewrite app_length in E. cbn in *. lia.
Qed.
(** [calculate_rat] on a passive stack. *)
Lemma rat_coherent o s wl angle pol (n0 : R) l nf cl :
  get_indices o s wl = Ok (stack_n n0 l nf) -> get_widths o s = stack_d l ->
  0 < wl -> 0 < n0 -> 0 <= radians angle < PI / 2 ->
  (single pol \/ mixed_light pol) ->
  (forall q, needed pol q -> Forall (medium_ok q wl (n0 * sin (radians angle))) l) ->
  passive (n0 * sin (radians angle)) nf ->
  exists r mid, calculate_rat o s wl angle pol true cl = Ok r /\
    ra_layers r = ra_R r :: mid ++ [ra_T r] /\ length mid = length l /\
    Forall (fun x => 0 <= x) (ra_layers r) /\ total (ra_layers r) = 1 /\
    ra_A r = total mid /\
    absorptances (by_layer (stack_n n0 l nf) (stack_d l) (radians angle) wl) pol (ra_layers r) /\
    0 <= ra_R r < 1 /\ 0 < ra_T r <= 1.
Proof.
  intros Ei Ew Hwl Hn Hth Hpol Hm Hf. unfold calculate_rat, check_list. rewrite Ei, Ew. cbn [bindR]. cbv zeta.
  assert (G : forall q, needed pol q -> valid_pol q -> exists d A,
    coh_tmm q (stack_n n0 l nf) (stack_d l) (sin (radians angle)) (cos (radians angle)) wl = Ok d /\
    absorp_in_each_layer d = Ok A /\ length A = (length l + 2)%nat /\
    Forall (fun x => 0 <= x)%R A /\ total A = 1%R /\
    hd 0%R A = cd_R d /\ last A 0%R = cd_T d /\ (0 <= cd_R d < 1)%R /\ (0 < cd_T d <= 1)%R).
  { intros q Hq Vq. destruct (C42_balance_partial q n0 (radians angle) wl l nf Vq Hwl Hn Hth (Hm q Hq) Hf)
      as (d & A & B1 & B2 & B3 & B4 & B5 & B6 & B7 & B8 & B9 & B10). exists d, A. auto 12. }
  destruct Hpol as [Hs|Hu].
  - rewrite (single_in_sp _ Hs).
    destruct (G pol (or_introl (conj Hs eq_refl)) Hs) as (d & A & B1 & B2 & B3 & B4 & B5 & B6 & B7 & B8 & B9).
    rewrite B1. cbn [bindR]. rewrite B2. cbn [bindR].
    destruct (bracketed A _ B3) as (mid & EA & Lm). rewrite B6, B7 in EA.
    eexists. exists mid. split; [reflexivity|]. cbn [ra_layers ra_R ra_T ra_A].
    split; [exact EA|]. split; [exact Lm|]. split; [exact B4|]. split; [exact B5|]. split.
    { rewrite EA in B5. cbn [total] in B5.
      assert (Q : forall a b, total (a ++ [b]) = total a + b).
      { clear. induction a as [|x a IH]; intros b; cbn; [lra|]. rewrite IH. lra. }
      rewrite Q in B5. lra. }
    split; [left; split; [exact Hs|now exists d]|]. split; assumption.
  - rewrite (mixed_in_sp _ Hu).
    destruct (G "p"%string (or_intror (conj Hu (or_intror eq_refl))) (or_intror eq_refl))
      as (p & Ap & B1 & B2 & B3 & B4 & B5 & B6 & B7 & B8 & B9).
    destruct (G "s"%string (or_intror (conj Hu (or_introl eq_refl))) (or_introl eq_refl))
      as (s' & As & D1 & D2 & D3 & D4 & D5 & D6 & D7 & D8 & D9).
    rewrite B1. cbn [bindR]. rewrite D1. cbn [bindR]. rewrite B2. cbn [bindR]. rewrite D2. cbn [bindR].
    assert (HL : length Ap = length As) by congruence.
    assert (LH : length (halves Ap As) = (length l + 2)%nat).
    { unfold halves. rewrite map_length, combine_length, <- HL, Nat.min_id. exact B3. }
    assert (MM := halves_mean Ap As HL).
    assert (EH : hd 0 (halves Ap As) = / 2 * (cd_R p + cd_R s')).
    { rewrite <- B6, <- D6. destruct Ap as [|x Ap]; [cbn in B3; lia|].
      destruct As as [|y As]; [cbn in D3; lia|]. reflexivity. }
    assert (ET : last (halves Ap As) 0 = / 2 * (cd_T p + cd_T s')).
    { assert (NL : forall m : list R, last m 0 = nth (length m - 1) m 0).
      { clear. induction m as [|x m IH]; [reflexivity|]. destruct m as [|y m]; [reflexivity|].
        change (last (x :: y :: m) 0) with (last (y :: m) 0). rewrite IH. cbn [length Nat.sub]. 
        rewrite Nat.sub_0_r. reflexivity. }
      rewrite <- B7, <- D7, !NL, LH, B3, D3. destruct MM as (_ & _ & MM). rewrite MM. lra. }
    destruct (bracketed _ _ LH) as (mid & EA & Lm). rewrite EH, ET in EA.
    eexists. exists mid. split; [reflexivity|]. cbn [ra_layers ra_R ra_T ra_A].
    assert (TT : total (halves Ap As) = 1) by (rewrite halves_total by exact HL; lra).
    split; [exact EA|]. split; [exact Lm|]. split; [now apply halves_nonneg|]. split; [exact TT|]. split.
    { rewrite EA in TT. cbn [total] in TT.
      assert (Q : forall a b, total (a ++ [b]) = total a + b).
      { clear. induction a as [|x a IH]; intros b; cbn; [lra|]. rewrite IH. lra. }
      rewrite Q in TT. lra. }
    split; [|split; lra].
    right. split; [exact Hu|]. exists As, Ap. split; [now exists s'|]. split; [now exists p|]. exact MM.
Qed.

(** * C147: energy *)
Lemma total_app' a b : total (a ++ b) = total a + total b.
Proof. induction a as [|x a IH]; cbn [app total]; [lra|]. rewrite IH. lra. Qed.
Lemma total_nonneg' l : Forall (fun x => 0 <= x) l -> 0 <= total l.
Proof. induction 1; cbn [total]; lra. Qed.
Lemma total_map_scale k : forall As, total (map (fun a => k * total a) As) = k * total (concat As).
Proof. induction As as [|a As IH]; cbn [map total concat]; [lra|]. rewrite IH, total_app'. lra. Qed.
Lemma Forall_app_parts {X} (P : X -> Prop) a b : Forall P (a ++ b) -> Forall P a /\ Forall P b.
Proof. apply Forall_app. Qed.
(** What the cell is told at one wavelength, when the light not in the shade is [initial] and the
    list [A] says where it goes: the front reflects the first entry, every element is given the
    sum over its own layers, in order, and the rest is transmitted. *)
Definition split_of (o : outer) (c : cell) (initial : R) (A : list R) (r : optics) : Prop :=
  exists R_ As extra T, A = R_ :: concat As ++ extra ++ [T] /\
    pieces c As /\ length extra = (if o_noback o then 1 else 0)%nat /\
    op_refl r = initial * R_ /\
    op_layers r = map (fun a => initial * total a) As /\
    op_abs r = total (op_layers r) /\
    op_trans r = initial * (total extra + T) /\
    op_refl r + op_abs r + op_trans r = initial /\
    (0 <= initial -> 0 <= op_refl r /\ Forall (fun x => 0 <= x) (op_layers r) /\ 0 <= op_trans r).
Lemma split_wavelength o (c : cell) initial r mid (wl angle : R) pol coherent cl :
  Forall known c -> NoDup (map fst c) -> (o_noback o = true -> layers_of c <> []) ->
  length mid = (length (layers_of c) + if o_noback o then 1 else 0)%nat ->
  calculate_rat o (full_stack (layers_of c)) (wl * 10 ^ 9) angle pol coherent cl = Ok r ->
  ra_layers r = ra_R r :: mid ++ [ra_T r] ->
  Forall (fun x => 0 <= x) (ra_layers r) -> total (ra_layers r) = 1 ->
  exists x, at_wavelength o (full_stack (layers_of c)) initial (map (fun p => length (members (snd p))) c) c
              angle pol coherent cl wl = Ok x /\ split_of o c initial (ra_layers r) x.
Proof.
  intros HK ND Hn Lm Er EA FA TA.
  destruct (cut c mid _ Lm) as (As & extra & Em & P & Le).
  assert (In_ : inner (ra_layers r) = [] ++ concat As ++ extra).
  { rewrite EA. unfold inner. cbn [tl]. rewrite removelast_last. exact Em. }
  unfold at_wavelength. rewrite Er. cbn [bindR]. rewrite In_.
  rewrite (shares_spec initial c As [] extra P : shares _ _ _ 0 _ = _). cbn [bindR].
  assert (LA : length As = length c) by (clear - P; induction P; cbn; lia).
  rewrite stored_distinct; [|exact ND|now rewrite !map_length, LA].
  eexists. split; [reflexivity|]. rewrite add_up_total.
  exists (ra_R r), As, extra, (ra_T r). cbn [op_refl op_layers op_abs op_trans].
  rewrite EA in TA, FA. subst mid. rewrite <- app_assoc in TA, FA.
  split; [rewrite EA, <- app_assoc; reflexivity|]. split; [exact P|]. split; [exact Le|].
  cbn [total] in TA. rewrite !total_app' in TA. cbn [total] in TA.
  rewrite total_map_scale. split; [lra|]. split; [reflexivity|]. split; [reflexivity|].
  assert (E : initial - ra_R r * initial - initial * total (concat As) = initial * (total extra + ra_T r)).
  { replace (ra_T r) with (1 - ra_R r - total (concat As) - total extra) by lra. ring. }
  split; [exact E|]. split; [lra|]. intros Hi.
  assert (F0 := Forall_inv FA). assert (F1 := Forall_inv_tail FA).
  apply Forall_app_parts in F1. destruct F1 as [F1 F2]. apply Forall_app_parts in F2. destruct F2 as [F2 F3].
  split; [rewrite Rmult_comm; now apply Rmult_le_pos|]. split.
  - clear - F1 Hi. induction As as [|a As IH]; constructor.
    + apply Rmult_le_pos; [exact Hi|]. apply total_nonneg'. cbn [concat] in F1. now apply Forall_app_parts in F1.
    + apply IH. cbn [concat] in F1. now apply Forall_app_parts in F1.
  - rewrite E. apply Rmult_le_pos; [exact Hi|]. apply total_nonneg' in F2. apply Forall_inv in F3. lra.
Qed.

Definition front_index (o : outer) (wl : R) : R := match o_inc o with Some f => f wl | None => 1 end.
Lemma front_index_spec o wl : n_front o wl = RtoC (front_index o wl).
Proof. unfold n_front, front_index. now destruct (o_inc o). Qed.
Lemma mapRR_Forall2 {X Y} (f : X -> res Y) (P : X -> Y -> Prop) (l : list X) :
  (forall x, In x l -> exists y, f x = Ok y /\ P x y) -> exists ys, mapRR f l = Ok ys /\ Forall2 P l ys.
Proof.
  induction l as [|x l IH]; intros H; [exists []; split; [reflexivity|constructor]|].
  destruct (H x (or_introl eq_refl)) as (y & E & Py).
  destruct IH as (ys & Es & Fs); [intros; apply H; now right|].
  exists (y :: ys). cbn [mapRR]. rewrite E. cbn [bindR]. rewrite Es. split; [reflexivity|now constructor].
Qed.
Lemma fold_max_ge : forall r a, a <= fold_left Rmax r a /\ Forall (fun x => x <= fold_left Rmax r a) r.
Proof.
  induction r as [|x r IH]; intros a; cbn [fold_left]; [split; [lra|constructor]|].
  destruct (IH (Rmax a x)) as [H1 H2]. assert (Q1 := Rmax_l a x). assert (Q2 := Rmax_r a x).
  split; [lra|]. constructor; [lra|exact H2].
Qed.
Lemma fold_max_in : forall r a, In (fold_left Rmax r a) (a :: r).
Proof.
  induction r as [|x r IH]; intros a; cbn [fold_left]; [now left|].
  destruct (IH (Rmax a x)) as [H|H]; [|right; now right].
  rewrite <- H. unfold Rmax. destruct (Rle_dec a x); [right; now left|now left].
Qed.
Definition longest (wls : list R) (m : R) : Prop := In m wls /\ Forall (fun w => w <= m) wls.
Lemma np_max_spec wls m : longest wls m -> np_max wls = Ok m.
Proof.
  intros [H1 H2]. destruct wls as [|x r]; [destruct H1|]. cbn [np_max]. f_equal.
  destruct (fold_max_ge r x) as [G1 G2]. assert (G3 := fold_max_in r x).
  apply Rle_antisym.
  - exact (proj1 (Forall_forall _ _) H2 _ G3).
  - destruct H1 as [->|H1]; [exact G1|]. exact (proj1 (Forall_forall _ _) G2 _ H1).
Qed.
Lemma longest_exists wls : wls <> [] -> exists m, longest wls m.
Proof.
  destruct wls as [|x r]; [congruence|]. intros _. exists (fold_left Rmax r x). split; [apply fold_max_in|].
  constructor; apply fold_max_ge.
Qed.
Lemma existsb_thick m ws : Forall (fun w => w <= 10 * m) ws -> existsb (thick m) ws = false.
Proof.
  induction 1 as [|w ws H _ IH]; [reflexivity|]. cbn [existsb]. rewrite IH. unfold thick.
  destruct (Rlt_dec (10 * m) w); [lra|reflexivity].
Qed.
(** The light that is not in the shade is shared out completely between reflection, the elements
    of the cell and transmission, with no negative part, at every wavelength. Every element
    receives what its own layers absorb; what the layer standing for a non-reflecting back
    absorbs counts as transmitted. All layers are treated coherently here. *)
Theorem C147_balance_partial : forall o shading (c : cell) wls BL theta pol,
  forall th, th = theta * PI / 180 ->
  Forall known c -> NoDup (map fst c) -> (o_noback o = true -> layers_of c <> []) ->
  0 <= th < PI / 2 -> (single pol \/ mixed_light pol) ->
  (BL = true -> exists w, In w wls /\ Forall (fun l => l_width l <= 10 * w) (layers_of c)) ->
  (forall wl, In wl wls -> 0 < wl /\ 0 < front_index o wl /\
     let beta := front_index o wl * sin th in
     passive beta (n_back o wl) /\
     forall q, needed pol q ->
       Forall (fun x => passive beta (fst x) /\ 0 <= snd x /\ benign q (wl * 10 ^ 9) beta x) (optical o c wl)) ->
  exists rs, solve_tmm o shading c wls BL theta pol None = Ok rs /\
    Forall2 (fun wl r => exists A,
      absorptances (by_layer (stack_n (front_index o wl) (optical o c wl) (n_back o wl))
                             (stack_d (optical o c wl)) th (wl * 10 ^ 9)) pol A /\
      split_of o c (1 - shading) A r) wls rs.
Proof.
  intros o shading c wls BL theta pol th Hdeg HK ND Hn Hth Hpol HB Hwl.
  replace (theta * PI / 180) with (radians theta) in Hdeg by (unfold radians; field). subst th.
  unfold solve_tmm. rewrite (collect_spec c HK). cbn [fst snd]. cbv zeta.
  assert (ET : treatment BL wls (map l_width (layers_of c)) (st_num (full_stack (layers_of c))) None = Ok (true, None)).
  { unfold treatment. cbn [bindR]. destruct BL; [|reflexivity].
    destruct (HB eq_refl) as (w & Hw & Fw).
    destruct (longest_exists wls) as [m Hm]; [intros ->; destruct Hw|].
    rewrite (np_max_spec _ _ Hm). cbn [bindR]. rewrite existsb_thick; [reflexivity|].
    apply Forall_map. eapply Forall_impl; [|exact Fw]. cbn beta. intros l Hl.
    assert (w <= m) by exact (proj1 (Forall_forall _ _) (proj2 Hm) _ Hw). lra. }
  rewrite ET. cbn [bindR fst snd].
  apply mapRR_Forall2. intros wl Hin. destruct (Hwl wl Hin) as (W1 & W2 & W3 & W4).
  destruct (rat_coherent o (full_stack (layers_of c)) (wl * 10 ^ 9) theta pol (front_index o wl) (optical o c wl)
              (n_back o wl) None) as (r & mid & E1 & E2 & E3 & E4 & E5 & E6 & E7 & E8 & E9); auto.
  - rewrite (indices_optical o c wl Hn), front_index_spec. reflexivity.
  - now apply widths_optical.
  - lra.
  - destruct (split_wavelength o c (1 - shading) r mid wl theta pol true None) as (x & X1 & X2); auto.
    + rewrite E3. unfold optical. rewrite app_length, map_length. f_equal.
      destruct (o_noback o); [|reflexivity]. specialize (Hn eq_refl).
      destruct (rev (layers_of c)) eqn:Er; [|reflexivity].
      exfalso. apply Hn. rewrite <- (rev_involutive (layers_of c)), Er. reflexivity.
    + exists x. split; [exact X1|]. exists (ra_layers r). split; [exact E7|exact X2].
Qed.

(** * C147: which layers are treated incoherently *)
(** With the correction on, exactly the layers thicker than ten times the longest wavelength are
    switched to the incoherent treatment; the others keep the treatment asked for (coherent if
    nothing was asked for). *)
Theorem C147_thick : forall o shading (c : cell) wls theta pol m,
  Forall known c -> longest wls m ->
  let ws := map l_width (layers_of c) in
  let solve BL cl := solve_tmm o shading c wls BL theta pol cl in
  (Forall (fun w => w <= 10 * m) ws -> forall cl, solve true cl = solve false cl) /\
  (Exists (fun w => 10 * m < w) ws -> forall marks,
     Forall2 (fun w x => (10 * m < w /\ x = "i"%string) \/ (w <= 10 * m /\ x = "c"%string)) ws marks ->
     solve true None = solve false (Some marks)) /\
  (forall l marks, length l = length ws ->
     Forall2 (fun wy x => (10 * m < fst wy /\ x = "i"%string) \/ (fst wy <= 10 * m /\ x = snd wy)) (combine ws l) marks ->
     solve true (Some l) = solve false (Some marks)) /\
  (forall l BL, length l <> length ws -> solve BL (Some l) = Err ValueError).
Proof.
  intros o shading c wls theta pol m HK Hm ws solve. unfold solve, solve_tmm. rewrite (collect_spec c HK).
  cbn [fst snd]. cbv zeta. fold ws.
  assert (EN : st_num (full_stack (layers_of c)) = length ws).
  { unfold ws. rewrite map_length. apply full_stack_fields. }
  rewrite EN. unfold treatment. rewrite (np_max_spec _ _ Hm).
  assert (Thick : forall w, thick m w = true <-> 10 * m < w).
  { intros w. unfold thick. destruct (Rlt_dec (10 * m) w); split; auto; discriminate. }
  assert (Mark : forall l marks, length l = length ws ->
     Forall2 (fun wy x => (10 * m < fst wy /\ x = "i"%string) \/ (fst wy <= 10 * m /\ x = snd wy)) (combine ws l) marks ->
     map (fun wc => if thick m (fst wc) then "i"%string else snd wc) (combine ws l) = marks).
  { intros l marks _ F. induction F as [|wy x a b H F IH]; [reflexivity|]. cbn [map]. rewrite IH. f_equal.
    destruct H as [[H ->]|[H ->]]; unfold thick; destruct (Rlt_dec (10 * m) (fst wy)); auto; lra. }
  assert (F2len : forall (l : list string) (marks : list string) (Q : R * string -> string -> Prop), length l = length ws ->
     Forall2 Q (combine ws l) marks -> length marks = length ws).
  { intros l marks Q HL F. assert (E : length (combine ws l) = length marks) by (clear - F; induction F; cbn; lia).
    rewrite <- E, combine_length, HL. apply Nat.min_id. }
  split; [|split; [|split]].
  - intros H cl. destruct cl as [l|]; cbn [bindR]; [destruct (length l =? length ws)%nat; [|reflexivity]; cbn [bindR]|];
      rewrite existsb_thick by exact H; reflexivity.
  - intros HE marks F. cbn [bindR].
    assert (EX : existsb (thick m) ws = true).
    { apply existsb_exists. apply Exists_exists in HE. destruct HE as (w & Hw & Hw'). exists w. split; [exact Hw|].
      now apply Thick. }
    rewrite EX.
    assert (LM : length marks = length ws) by (symmetry; clear - F; induction F; cbn; lia).
    rewrite LM, Nat.eqb_refl. cbn [bindR].
    rewrite (Mark (repeat "c"%string (length ws)) marks); [reflexivity|apply repeat_length|].
    clear - F. induction F as [|w x a b H F IH]; cbn; constructor; [exact H|exact IH].
  - intros l marks HL F. assert (LM := F2len l marks _ HL F). assert (EM := Mark l marks HL F).
    rewrite HL, LM, Nat.eqb_refl. cbn [bindR].
    destruct (existsb (thick m) ws) eqn:EX.
    + destruct l as [|y l']; [|rewrite EM; reflexivity].
      destruct ws as [|w ws']; [discriminate EX|discriminate HL].
    + replace marks with l; [reflexivity|]. rewrite <- EM. clear EM LM F EN Mark F2len Thick solve. clearbody ws. revert l HL EX.
      induction ws as [|w ws' IH]; intros l HL EX; [destruct l; [reflexivity|discriminate]|].
      destruct l as [|y l]; [discriminate|]. cbn [existsb] in EX. apply orb_false_iff in EX. destruct EX as [E1 E2].
      cbn [combine map fst snd]. rewrite E1. f_equal. apply IH; [exact (eq_add_S _ _ HL)|exact E2].
  - intros l BL HL. apply Nat.eqb_neq in HL. rewrite HL. reflexivity.
Qed.

(** * C147: partly incoherent stacks *)
Definition by_layer_inc (ns : list C) (ds : list (option R)) (cs : list string) (th lam : R) (pol : string) (A : list R) : Prop :=
  exists d, inc_tmm pol ns ds cs (sin th) lam = Ok d /\ inc_absorp_in_each_layer d = Ok A.

(** The same for a stack with incoherent layers (numbered by the segments of [IncProps]) that do
    not absorb themselves: they receive nothing. *)
Lemma rat_incoherent o s wl angle pol (n0 : R) l cl :
  get_indices o s wl = Ok (all_n n0 l) -> get_widths o s = all_d l ->
  st_num s = length cl -> padded (o_noback o) cl = all_c l ->
  0 < wl -> 0 < n0 -> 0 <= radians angle < PI / 2 -> (single pol \/ mixed_light pol) ->
  (forall q, needed pol q -> valid_pol q ->
    let beta := n0 * sin (radians angle) in
    structure l /\ steep beta n0 /\ Forall (fun s : seg => steep beta (fst (snd s))) l /\
    Forall (fun s : seg => transparent beta (fst (snd s))) (removelast l) /\
    passive beta (fst (snd (last l ([], (RtoC 0, None))))) /\
    Forall (fun s : seg => Forall (medium_ok q wl beta) (fst s)) l /\
    Forall (not_opaque q wl beta) (joints n0 l)) ->
  exists r mid, calculate_rat o s wl angle pol false (Some cl) = Ok r /\
    ra_layers r = ra_R r :: mid ++ [ra_T r] /\ Forall2 entry (inner (all_c l)) mid /\
    Forall (fun x => 0 <= x) (ra_layers r) /\ total (ra_layers r) = 1 /\
    absorptances (by_layer_inc (all_n n0 l) (all_d l) (all_c l) (radians angle) wl) pol (ra_layers r).
Proof.
  intros Ei Ew En Ec Hwl Hn Hth Hpol Hm. unfold calculate_rat, check_list. rewrite En, Nat.eqb_refl, Ei, Ew, Ec.
  cbn [bindR]. cbv zeta.
  assert (G : forall q, needed pol q -> valid_pol q -> exists d A,
    inc_tmm q (all_n n0 l) (all_d l) (all_c l) (sin (radians angle)) wl = Ok d /\
    inc_absorp_in_each_layer d = Ok A /\
    (exists As, A = id_R d :: As ++ [id_T d] /\ Forall2 entry (inner (all_c l)) As) /\
    total A = 1%R /\ (0 <= id_R d)%R /\ (0 <= id_T d)%R).
  { intros q Hq Vq. destruct (Hm q Hq Vq) as (M1 & M2 & M3 & M4 & M5 & M6 & M7).
    destruct (C84_energy_partial q n0 (radians angle) wl l Vq Hwl Hn Hth M1 M2 M3 M4 M5 M6 M7)
      as (d & A & B1 & B2 & B3 & B4 & B5 & B6 & B7). exists d, A. repeat split; auto; lra. }
  assert (NN : forall cs As, Forall2 entry cs As -> Forall (fun x => 0 <= x) As).
  { clear. induction 1 as [|c x cs As H _ IH]; constructor; [apply H|exact IH]. }
  destruct Hpol as [Hs|Hu].
  - rewrite (single_in_sp _ Hs).
    destruct (G pol (or_introl (conj Hs eq_refl)) Hs) as (d & A & B1 & B2 & (As & EA & FA) & B4 & B5 & B6).
    rewrite B1. cbn [bindR]. rewrite B2. cbn [bindR].
    eexists. exists As. split; [reflexivity|]. cbn [ra_layers ra_R ra_T].
    split; [exact EA|]. split; [exact FA|]. split.
    { rewrite EA. constructor; [exact B5|]. apply Forall_app. split; [exact (NN _ _ FA)|]. constructor; [exact B6|constructor]. }
    split; [exact B4|]. left. split; [exact Hs|now exists d].
  - rewrite (mixed_in_sp _ Hu).
    destruct (G "p"%string (or_intror (conj Hu (or_intror eq_refl))) (or_intror eq_refl))
      as (p & Ap & B1 & B2 & (Mp & EAp & FAp) & B4 & B5 & B6).
    destruct (G "s"%string (or_intror (conj Hu (or_introl eq_refl))) (or_introl eq_refl))
      as (s' & As & D1 & D2 & (Ms & EAs & FAs) & D4 & D5 & D6).
    rewrite B1. cbn [bindR]. rewrite D1. cbn [bindR]. rewrite B2. cbn [bindR]. rewrite D2. cbn [bindR].
    assert (LM : length Mp = length Ms).
    { transitivity (length (inner (all_c l))); [symmetry; clear - FAp; induction FAp; cbn; lia|clear - FAs; induction FAs; cbn; lia]. }
    assert (HL : length Ap = length As) by (rewrite EAp, EAs; cbn; rewrite !app_length, LM; reflexivity).
    assert (EH : halves Ap As = / 2 * (id_R p + id_R s') :: halves Mp Ms ++ [/ 2 * (id_T p + id_T s')]).
    { rewrite EAp, EAs. unfold halves. cbn [combine map fst snd]. f_equal. clear - LM. revert Ms LM.
      induction Mp as [|x Mp IH]; intros [|y Ms] LM; try discriminate; [reflexivity|].
      cbn [app combine map fst snd]. f_equal. apply IH. exact (eq_add_S _ _ LM). }
    assert (FH : Forall2 entry (inner (all_c l)) (halves Mp Ms)).
    { clear - FAp FAs. revert Ms FAs. induction FAp as [|c x cs Mp H F IH]; intros Ms FAs.
      - inversion FAs. constructor.
      - inversion FAs as [|c' y cs' Ms' H' F']; subst. unfold halves. cbn [combine map fst snd].
        constructor; [|exact (IH _ F')]. destruct H as [H1 H2], H' as [H1' H2']. split; [lra|].
        intros E. rewrite (H2 E), (H2' E). lra. }
    eexists. exists (halves Mp Ms). split; [reflexivity|]. cbn [ra_layers ra_R ra_T].
    split; [exact EH|]. split; [exact FH|]. split.
    { rewrite EH. constructor; [lra|]. apply Forall_app. split; [exact (NN _ _ FH)|]. constructor; [lra|constructor]. }
    split; [rewrite halves_total by exact HL; lra|].
    right. split; [exact Hu|]. exists As, Ap. split; [now exists s'|]. split; [now exists p|].
    now apply halves_mean.
Qed.
Theorem C147_incoherent_partial : forall o shading (c : cell) wls theta pol cl (segs : R -> list seg),
  forall th, th = theta * PI / 180 ->
  Forall known c -> NoDup (map fst c) -> (o_noback o = true -> layers_of c <> []) ->
  0 <= th < PI / 2 -> (single pol \/ mixed_light pol) ->
  length cl = length (layers_of c) ->
  (forall wl, In wl wls -> 0 < wl /\ 0 < front_index o wl /\
     let beta := front_index o wl * sin th in
     let l := segs wl in let x := optical o c wl in
     stack_n (front_index o wl) x (n_back o wl) = all_n (front_index o wl) l /\
     stack_d x = all_d l /\ kinds (o_noback o) cl = all_c l /\
     structure l /\ steep beta (front_index o wl) /\ Forall (fun s : seg => steep beta (fst (snd s))) l /\
     Forall (fun s : seg => transparent beta (fst (snd s))) (removelast l) /\
     passive beta (fst (snd (last l ([], (RtoC 0, None))))) /\
     forall q, needed pol q ->
       Forall (fun s : seg => Forall (medium_ok q (wl * 10 ^ 9) beta) (fst s)) l /\
       Forall (not_opaque q (wl * 10 ^ 9) beta) (joints (front_index o wl) l)) ->
  exists rs, solve_tmm o shading c wls false theta pol (Some cl) = Ok rs /\
    Forall2 (fun wl r => exists A mid R_ T,
      absorptances (by_layer_inc (stack_n (front_index o wl) (optical o c wl) (n_back o wl))
                             (stack_d (optical o c wl)) (kinds (o_noback o) cl) th (wl * 10 ^ 9)) pol A /\
      A = R_ :: mid ++ [T] /\ Forall2 entry (inner (kinds (o_noback o) cl)) mid /\
      split_of o c (1 - shading) A r) wls rs.
Proof.
  intros o shading c wls theta pol cl segs th Hdeg HK ND Hn Hth Hpol HL Hwl.
  replace (theta * PI / 180) with (radians theta) in Hdeg by (unfold radians; field). subst th.
  unfold solve_tmm. rewrite (collect_spec c HK). cbn [fst snd]. cbv zeta.
  assert (EN : st_num (full_stack (layers_of c)) = length cl) by (rewrite HL; apply full_stack_fields).
  unfold treatment. rewrite EN, Nat.eqb_refl. cbn [bindR fst snd].
  apply mapRR_Forall2. intros wl Hin. destruct (Hwl wl Hin) as (W1 & W2 & W3 & W4 & W5 & W6 & W7 & W8 & W9 & W10 & W11).
  destruct (rat_incoherent o (full_stack (layers_of c)) (wl * 10 ^ 9) theta pol (front_index o wl) (segs wl) cl)
    as (r & mid & E1 & E2 & E3 & E4 & E5 & E6); auto.
  - rewrite (indices_optical o c wl Hn), front_index_spec, W3. reflexivity.
  - rewrite (widths_optical o c wl Hn). exact W4.
  - rewrite padded_kinds. exact W5.
  - lra.
  - intros q Hq _. destruct (W11 q Hq). auto 10.
  - destruct (split_wavelength o c (1 - shading) r mid wl theta pol false (Some cl)) as (x & X1 & X2); auto.
    + assert (LE : length (inner (all_c (segs wl))) = length mid) by (clear - E3; induction E3; cbn; lia).
      rewrite <- LE, <- W5, <- HL. unfold kinds. destruct (o_noback o); unfold inner.
      * cbn [app tl]. replace (cl ++ ["i"%string; "i"%string]) with ((cl ++ ["i"%string]) ++ ["i"%string])
          by (rewrite <- app_assoc; reflexivity).
        rewrite removelast_last, app_length. cbn. lia.
      * cbn [app tl]. rewrite removelast_last. lia.
    + exists x. split; [exact X1|]. exists (ra_layers r), mid, (ra_R r), (ra_T r).
      rewrite W3, W4, W5. split; [exact E6|]. split; [exact E2|]. split; [exact E3|exact X2].
Qed.

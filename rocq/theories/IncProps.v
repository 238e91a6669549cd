(** Properties of the partly incoherent transfer matrix method (IncModel). *)
From Coq Require Import Reals String List Arith Bool Lra Lia.
From Coquelicot Require Import Coquelicot.
From Verif Require Import Common TmmModel TmmProps TmmLayersModel TmmLayersProps IncModel.
From Coq Require Import List.
Import ListNotations.
Open Scope R_scope.
Open Scope list_scope.

(** A partly incoherent structure behind the incident medium: groups of coherent layers
    (possibly empty), each followed by an incoherent layer, whose thickness is [None] for
    the semi-infinite last one. *)
Notation seg := (list (C * R) * (C * option R))%type.
Definition seg_n (s : seg) : list C := map fst (fst s) ++ [fst (snd s)].
Definition seg_d (s : seg) : list (option R) := map (fun x => Some (snd x)) (fst s) ++ [snd (snd s)].
Definition seg_c (s : seg) : list string := repeat "c"%string (length (fst s)) ++ ["i"%string].
Definition all_n (n0 : C) (l : list seg) : list C := n0 :: concat (map seg_n l).
Definition all_d (l : list seg) : list (option R) := None :: concat (map seg_d l).
Definition all_c (l : list seg) : list string := "i"%string :: concat (map seg_c l).

(** * What [inc_group_layers] returns for it *)
Fixpoint x_afi (k : nat) (l : list seg) : list nat :=
  match l with [] => [] | s :: r => (k + length (fst s))%nat :: x_afi (k + length (fst s) + 1) r end.
Fixpoint x_sfi (j : nat) (l : list seg) : list (option nat) :=
  match l with
  | [] => []
  | s :: r => match fst s with [] => None :: x_sfi j r | _ => Some j :: x_sfi (j + 1) r end
  end.
Fixpoint x_ifs (i : nat) (l : list seg) : list nat :=
  match l with
  | [] => []
  | s :: r => match fst s with [] => x_ifs (i + 1) r | _ => i :: x_ifs (i + 1) r end
  end.
(** The stacks: the index of the layer in front, the coherent layers and the index of the
    layer behind, with the positions of all these layers. *)
Fixpoint x_stacks (n : C) (k : nat) (l : list seg) : list (C * list (C * R) * C * nat) :=
  match l with
  | [] => []
  | s :: r => match fst s with
              | [] => x_stacks (fst (snd s)) (k + length (fst s) + 1) r
              | _ => (n, fst s, fst (snd s), k) :: x_stacks (fst (snd s)) (k + length (fst s) + 1) r
              end
  end.
(** For each layer the stack it belongs to and its place in it. *)
Fixpoint x_sfa (j : nat) (l : list seg) : list (option (nat * nat)) :=
  match l with
  | [] => []
  | s :: r => match fst s with
              | [] => None :: x_sfa j r
              | _ => map (fun w => Some (j, w)) (seq 1 (length (fst s))) ++ None :: x_sfa (j + 1) r
              end
  end.
Definition st_n (x : C * list (C * R) * C * nat) : list C := let '(n, cl, n', _) := x in stack_n n cl n'.
Definition st_d (x : C * list (C * R) * C * nat) : list (option R) := let '(_, cl, _, _) := x in stack_d cl.
Definition st_k (x : C * list (C * R) * C * nat) : list nat :=
  let '(_, cl, _, k) := x in seq (k - 1) (length cl + 2).

Notation gst := (gstate (N := C) (D := R)).
Lemma coherent_run : forall cl prev k inc st w sd sn od on afi ifa afs last_ sfa ifs sfi rest,
  (1 <= w)%nat ->
  exists ifa' prev',
  group_loop (N := C) (D := R) prev k
    (combine (combine (map fst cl) (map (fun x => Some (snd x)) cl)) (repeat "c"%string (length cl)) ++ rest)
    (GState inc st (Some w) sd sn od on afi ifa (afs ++ [last_]) sfa ifs sfi)
  = group_loop prev' (k + length cl) rest
    (GState inc st (Some (w + length cl)%nat) sd sn (od ++ map (fun x => Some (snd x)) cl) (on ++ map fst cl) afi ifa'
       (afs ++ [last_ ++ seq k (length cl)]) (sfa ++ map (fun w => Some (st, w)) (seq (S w) (length cl))) ifs sfi).
Proof.
  induction cl as [|[n d] cl IH]; intros.
  - exists ifa, prev. cbn [map combine repeat length app seq]. rewrite !Nat.add_0_r, !app_nil_r. reflexivity.
  - cbn [map combine repeat length app fst snd group_loop].
    cbn [group_step]. rewrite append_last_snoc. cbn [String.eqb Ascii.eqb Bool.eqb bindR].
    destruct (IH n (S k) inc st (w + 1)%nat sd sn (od ++ [Some d]) (on ++ [n]) afi (ifa ++ [None]) afs (last_ ++ [k])
                (sfa ++ [Some (st, (w + 1)%nat)]) ifs sfi rest) as (ifa' & prev' & E); [lia|].
    exists ifa', prev'. rewrite E. f_equal; [lia|]. f_equal; [f_equal; lia| | | |].
    + now rewrite <- app_assoc.
    + now rewrite <- app_assoc.
    + cbn [seq]. rewrite <- app_assoc. reflexivity.
    + cbn [seq map]. rewrite <- app_assoc. replace (w + 1)%nat with (S w) by lia. reflexivity.
Qed.
Lemma combine_app {A B} (l l' : list A) (m m' : list B) : length l = length m ->
  combine (l ++ l') (m ++ m') = combine l m ++ combine l' m'.
Proof.
  revert m. induction l as [|x l IH]; intros [|y m] H; try discriminate; [reflexivity|].
  cbn. now rewrite IH by (now injection H).
Qed.
Lemma group_segs : forall l prev k inc st sd sn od on afi ifa afs sfa ifs sfi,
  (1 <= inc)%nat -> (1 <= k)%nat ->
  exists od' on' ifa',
  group_loop (N := C) (D := R) prev k
    (combine (combine (concat (map seg_n l)) (concat (map seg_d l))) (concat (map seg_c l)))
    (GState inc st None sd sn od on afi ifa afs sfa ifs sfi)
  = Ok (GState (inc + length l) (st + length (x_stacks prev k l)) None
       (sd ++ map st_d (x_stacks prev k l)) (sn ++ map st_n (x_stacks prev k l)) od' on'
       (afi ++ x_afi k l) ifa' (afs ++ map st_k (x_stacks prev k l)) (sfa ++ x_sfa st l) (ifs ++ x_ifs (inc - 1) l) (sfi ++ x_sfi st l)).
Proof.
  induction l as [|[cl [n d]] l IH]; intros prev k inc st sd sn od on afi ifa afs sfa ifs sfi Hi Hk.
  - exists od, on, ifa. cbn. rewrite !app_nil_r, !Nat.add_0_r. reflexivity.
  - cbn [map concat]. unfold seg_n at 1, seg_d at 1, seg_c at 1. cbn [fst snd].
    rewrite !combine_app
      by (rewrite ?combine_length, ?app_length, ?map_length, ?repeat_length, ?Nat.min_id; cbn; rewrite ?Nat.min_id; lia).
    cbn [combine app].
    destruct cl as [|[n1 d1] cl].
    + cbn [map combine repeat length app group_loop]. cbn [group_step String.eqb Ascii.eqb Bool.eqb bindR].
      cbn [x_stacks x_afi x_ifs x_sfi x_sfa fst snd length].
      destruct (IH n (S k) (inc + 1)%nat st sd sn od on (afi ++ [k]) (ifa ++ [Some inc]) afs (sfa ++ [None]) ifs (sfi ++ [None]))
        as (od' & on' & ifa' & E); [lia|lia|].
      exists od', on', ifa'. rewrite E. clear E.
      replace (k + 0 + 1)%nat with (S k) by lia. replace (k + 0)%nat with k by lia.
      replace (inc + 1 - 1)%nat with (inc - 1 + 1)%nat by lia.
      rewrite <- !app_assoc. cbn [app]. do 2 f_equal. lia.
    + set (cl1 := (n1, d1) :: cl). 
      change (map fst cl1) with (n1 :: map fst cl). change (map (fun x => Some (snd x)) cl1) with (Some d1 :: map (fun x : C * R => Some (snd x)) cl).
      change (repeat "c"%string (length cl1)) with ("c"%string :: repeat "c"%string (length cl)).
      cbn [combine app group_loop]. cbn [group_step String.eqb Ascii.eqb Bool.eqb bindR].
      rewrite <- app_assoc. 
      destruct (coherent_run cl n1 (S k) inc st 1%nat sd sn [None; Some d1] [prev; n1] afi (ifa ++ [None]) afs [(k - 1)%nat; k]
                  (sfa ++ [Some (st, 1%nat)]) (ifs ++ [(inc - 1)%nat]) sfi
                  ([(n, d, "i"%string)] ++ combine (combine (concat (map seg_n l)) (concat (map seg_d l))) (concat (map seg_c l))))
        as (ifa1 & prev1 & E); [lia|].
      cbn [app] in E |- *. rewrite E. clear E. cbn [group_loop]. cbn [group_step String.eqb Ascii.eqb Bool.eqb bindR].
      rewrite append_last_snoc.
      destruct (IH n (S (S k + length cl))%nat (inc + 1)%nat (st + 1)%nat
                  (sd ++ [([None; Some d1] ++ map (fun x => Some (snd x)) cl) ++ [None]])
                  (sn ++ [([prev; n1] ++ map fst cl) ++ [n]])
                  ([None; Some d1] ++ map (fun x => Some (snd x)) cl) ([prev; n1] ++ map fst cl)
                  (afi ++ [(S k + length cl)%nat]) (ifa1 ++ [Some inc])
                  (afs ++ [([(k - 1)%nat; k] ++ seq (S k) (length cl)) ++ [(S k + length cl)%nat]])
                  (((sfa ++ [Some (st, 1%nat)]) ++ map (fun w => Some (st, w)) (seq 2 (length cl))) ++ [None]) (ifs ++ [(inc - 1)%nat]) (sfi ++ [Some st]))
        as (od' & on' & ifa' & E); [lia|lia|].
      exists od', on', ifa'. cbn [app] in E |- *. rewrite E. clear E.
      unfold cl1. cbn [x_stacks x_afi x_ifs x_sfi x_sfa fst snd length map seq].
      replace (k + S (length cl) + 1)%nat with (S (S k + length cl))%nat by lia.
      replace (k + S (length cl))%nat with (S k + length cl)%nat by lia.
      replace (inc + 1 - 1)%nat with (inc - 1 + 1)%nat by lia.
      rewrite <- !app_assoc. cbn [app]. f_equal.
      assert (ES : st_k (prev, (n1, d1) :: cl, n, k) = (k - 1)%nat :: k :: seq (S k) (length cl) ++ [(S k + length cl)%nat]).
      { unfold st_k. cbn [length]. replace (S (length cl) + 2)%nat with (S (S (length cl + 1))) by lia. cbn [seq].
        replace (S (k - 1)) with k by lia. rewrite seq_app. reflexivity. }
      rewrite ES. f_equal; lia.
Qed.
Lemma group_all n0 l : l <> [] -> (forall s, last l ([], (RtoC 0, None)) = s -> snd (snd s) = None) ->
  exists od on ifa, inc_group_layers (N := C) (D := R) (all_n n0 l) (all_d l) (all_c l)
  = Ok (GState (S (length l)) (length (x_stacks n0 1 l)) None
       (map st_d (x_stacks n0 1 l)) (map st_n (x_stacks n0 1 l)) od on
       (0%nat :: x_afi 1 l) ifa (map st_k (x_stacks n0 1 l)) (None :: x_sfa 0 l) (x_ifs 0 l) (None :: x_sfi 0 l)).
Proof.
  intros Hl Hlast.
  destruct (group_segs l n0 1 1 0 [] [] [] [] [0%nat] [Some 0%nat] [] [None] [] [None]) as (od & on & ifa & E); [lia|lia|].
  exists od, on, ifa. unfold inc_group_layers, all_d, all_c, all_n.
  destruct (exists_last Hl) as (l' & s & El).
  specialize (Hlast s). rewrite El, last_last in Hlast. specialize (Hlast eq_refl).
  assert (Ld : exists m, None :: concat (map seg_d l) = m ++ [None]).
  { rewrite El, map_app, concat_app. cbn [map concat]. unfold seg_d at 2. rewrite Hlast, app_nil_r.
    eexists (None :: _ ++ _). cbn [app]. rewrite <- app_assoc. reflexivity. }
  assert (Lc : exists m, "i"%string :: concat (map seg_c l) = m ++ ["i"%string]).
  { rewrite El, map_app, concat_app. cbn [map concat]. unfold seg_c at 2. rewrite app_nil_r.
    eexists (_ :: _ ++ _). cbn [app]. rewrite <- app_assoc. reflexivity. }
  assert (R1 : is_inf_d (hd_error (rev (None :: concat (map seg_d l)))) = true).
  { destruct Ld as [m ->]. rewrite rev_unit. reflexivity. }
  assert (R2 : is_i (hd_error (rev ("i"%string :: concat (map seg_c l)))) = true).
  { destruct Lc as [m ->]. rewrite rev_unit. reflexivity. }
  rewrite R1, R2. cbn [hd_error is_inf_d is_i String.eqb Ascii.eqb Bool.eqb andb negb].
  assert (L1 : length (concat (map seg_n l)) = length (concat (map seg_d l)) /\
               length (concat (map seg_d l)) = length (concat (map seg_c l))).
  { clear. induction l as [|x l [I1 I2]]; [split; reflexivity|]. cbn [map concat]. rewrite !app_length, I1, I2.
    unfold seg_n, seg_d, seg_c. rewrite !app_length, !map_length, repeat_length. split; reflexivity. }
  destruct L1 as [L1 L2].
  replace (length (n0 :: concat (map seg_n l)) =? length (None :: concat (map seg_d l)))%nat with true
    by (symmetry; apply Nat.eqb_eq; cbn [length]; now rewrite L1).
  replace (length (None :: concat (map seg_d l)) =? length ("i"%string :: concat (map seg_c l)))%nat with true
    by (symmetry; apply Nat.eqb_eq; cbn [length]; now rewrite L2).
  cbn [andb negb combine group_loop]. cbn [group_step g0 String.eqb Ascii.eqb Bool.eqb bindR app].
  exact E.
Qed.

(** * The joints between successive incoherent layers *)
Notation joint := (C * list (C * R) * C)%type.
Fixpoint joints (n : C) (l : list seg) : list joint :=
  match l with [] => [] | s :: r => (n, fst s, fst (snd s)) :: joints (fst (snd s)) r end.
Section Run.
Context (pol : string) (lam beta : R) (Hpol : valid_pol pol) (Hlam : 0 < lam) (Hbeta : 0 <= beta).
Definition dat (j : joint) : coh_data := let '(n, cl, n') := j in out pol lam beta n (cos_in beta n) cl n'.
Definition bdat (j : joint) : coh_data := let '(n, cl, n') := j in out pol lam beta n' (cos_in beta n') (rev cl) n.
Definition jcpl (j : joint) : cpl := couple_stack (dat j) (bdat j).

Lemma run_stack f ns n cl n' k : nth (k - 1) ns (RtoC 0) = n ->
  stack_run f pol beta ns lam (st_n (n, cl, n', k), st_d (n, cl, n', k), st_k (n, cl, n', k))
  = f pol (stack_n n cl n') (stack_d cl) (sin_in beta n) (cos_in beta n) lam.
Proof.
  intros E. unfold stack_run, st_n, st_d, st_k. replace (length cl + 2)%nat with (S (length cl + 1)) by lia.
  cbn [seq hd]. now rewrite E.
Qed.
Lemma sin_in_mul (n : C) : n <> RtoC 0 -> (n * sin_in beta n = beta)%C.
Proof. intros H. unfold sin_in. field. exact H. Qed.
Lemma call_coh ns n cl n' k : n <> RtoC 0 -> nth (k - 1) ns (RtoC 0) = n ->
  stack_run coh_tmm pol beta ns lam (st_n (n, cl, n', k), st_d (n, cl, n', k), st_k (n, cl, n', k)) = Ok (dat (n, cl, n')).
Proof.
  intros Hn E. rewrite run_stack by exact E.
  rewrite (coh_tmm_stack pol n _ _ cl n' lam beta Hpol (sin_in_mul n Hn)). reflexivity.
Qed.
Lemma call_bcoh ns n cl n' k : n <> RtoC 0 -> n' <> RtoC 0 -> nth (k - 1) ns (RtoC 0) = n ->
  stack_run coh_tmm_reverse pol beta ns lam (st_n (n, cl, n', k), st_d (n, cl, n', k), st_k (n, cl, n', k))
  = Ok (bdat (n, cl, n')).
Proof.
  intros Hn Hn' E. rewrite run_stack by exact E. unfold coh_tmm_reverse. rewrite rev_stack_n, rev_stack_d.
  unfold stack_n at 1. fold (stack_n n cl n'). rewrite (last_stack n cl n' n), (sin_in_mul n Hn).
  rewrite (coh_tmm_stack pol n' _ _ (rev cl) n lam beta Hpol (sin_in_mul n' Hn')). reflexivity.
Qed.
Definition nonzero (s : seg) : Prop := fst (snd s) <> RtoC 0.
Definition st_j (x : C * list (C * R) * C * nat) : joint := fst x.
Lemma runs f (g : joint -> coh_data) ns :
  (forall n cl n' k, n <> RtoC 0 -> n' <> RtoC 0 -> nth (k - 1) ns (RtoC 0) = n ->
     stack_run f pol beta ns lam (st_n (n, cl, n', k), st_d (n, cl, n', k), st_k (n, cl, n', k)) = Ok (g (n, cl, n'))) ->
  forall l n k pre, n <> RtoC 0 -> Forall nonzero l -> ns = pre ++ n :: concat (map seg_n l) -> length pre = (k - 1)%nat -> (1 <= k)%nat ->
  mapRR (stack_run f pol beta ns lam)
    (combine (combine (map st_n (x_stacks n k l)) (map st_d (x_stacks n k l))) (map st_k (x_stacks n k l)))
  = Ok (map g (map st_j (x_stacks n k l))).
Proof.
  intros Hf. induction l as [|[cl [n1 d1]] l IH]; intros n k pre Hn F E Hk K; [reflexivity|].
  assert (H1 : n1 <> RtoC 0) by exact (Forall_inv F).
  assert (E2 : ns = (pre ++ n :: map fst cl) ++ n1 :: concat (map seg_n l)).
  { rewrite E. cbn [map concat]. unfold seg_n at 1. cbn [fst snd]. rewrite <- !app_assoc. reflexivity. }
  specialize (IH n1 (k + length cl + 1)%nat (pre ++ n :: map fst cl) H1 (Forall_inv_tail F) E2).
  rewrite app_length in IH. cbn [length] in IH. rewrite map_length in IH. specialize (IH ltac:(lia) ltac:(lia)).
  cbn [x_stacks fst snd]. destruct cl as [|x cl]; [exact IH|].
  set (cl1 := x :: cl) in *. cbn [map combine mapRR].
  rewrite Hf; [|exact Hn|exact H1|rewrite E, <- Hk; apply nth_middle].
  cbn [bindR]. unfold cl1 at 1 2 3. fold cl1. rewrite IH. reflexivity.
Qed.

(** ** A bare interface is a stack without layers *)
Lemma tq_nonzero n n' : passive beta n -> passive beta n' -> tq pol (med beta n) (med beta n') <> RtoC 0.
Proof.
  intros P P'. destruct (passive_med pol beta n Hpol Hbeta P) as (A & B & _).
  assert (D := passive_den pol beta n n' Hpol Hbeta P P'). unfold tq. intros E.
  assert (Q : (2 * fa pol (med beta n) * fb pol (med beta n) / den pol (med beta n) (med beta n')
               * den pol (med beta n) (med beta n') = 2 * fa pol (med beta n) * fb pol (med beta n))%C) by (field; exact D).
  rewrite E, Cmult_0_l in Q. symmetry in Q. revert Q.
  apply Cmult_neq_0; [apply Cmult_neq_0; [exact two_neq|exact A]|exact B].
Qed.
Lemma bare n n' : passive beta n -> passive beta n' ->
  let m := mt pol lam beta n [] n' in
  (m10 m / m00 m = rq pol (med beta n) (med beta n') /\ 1 / m00 m = tq pol (med beta n) (med beta n'))%C.
Proof.
  intros P P' m. assert (T := tq_nonzero n n' P P'). unfold m, mt, mtilde. cbn [lms fold_left nxt].
  unfold mmul, mscale, mid. cbn [m00 m01 m10 m11].
  set (t := tq pol (med beta n) (med beta n')) in *. set (r := rq pol (med beta n) (med beta n')). clearbody t r.
  assert (N : RtoC 1 <> RtoC 0) by (intros E; apply (f_equal Re) in E; cbn in E; lra).
  split.
  - replace (1 / t * r * 1 + 1 / t * 1 * 0)%C with (r * (1 / t))%C by (field; exact T).
    replace (1 / t * 1 * 1 + 1 / t * r * 0)%C with (1 / t)%C by (field; exact T).
    field. split; auto.
  - replace (1 / t * 1 * 1 + 1 / t * r * 0)%C with (1 / t)%C by (field; exact T). field. split; auto.
Qed.
Definition steep (n : C) : Prop := tan (/ 10 ^ 6) * Re (sin_in beta n) <= Re (cos_in beta n).
Lemma steep_grazing n : steep n -> grazing (sin_in beta n) (cos_in beta n) = false.
Proof. unfold steep, grazing. intros H. destruct (Rlt_dec _ _); [exfalso; lra|reflexivity]. Qed.
Lemma couple_bare n n' : passive beta n -> passive beta n' -> steep n -> steep n' ->
  couple_interface pol beta n n' = Ok (jcpl (n, [], n')).
Proof.
  intros P P' S S'. unfold couple_interface. rewrite !steep_grazing by assumption.
  assert (R_ : forall x y, interface_R pol (fst x) (fst y) (snd x) (snd y) false false = Ok (R_from_r (rq pol x y))).
  { intros x y. unfold interface_R. rewrite interface_r_q by exact Hpol. reflexivity. }
  assert (T_ : forall x y, interface_T pol (fst x) (fst y) (snd x) (snd y) false
                          = Ok (Tv pol (tq pol x y) (fst x) (fst y) (snd x) (snd y))).
  { intros x y. unfold interface_T. rewrite interface_t_q by exact Hpol. cbn [bindR].
    unfold T_from_t, Tv. destruct Hpol as [-> | ->]; reflexivity. }
  assert (R1 := R_ (med beta n) (med beta n')). assert (R2 := R_ (med beta n') (med beta n)).
  assert (T1 := T_ (med beta n) (med beta n')). assert (T2 := T_ (med beta n') (med beta n)).
  cbn [med fst snd] in R1, R2, T1, T2. rewrite R1, R2, T1, T2. cbn [bindR]. f_equal.
  unfold jcpl, couple_stack, dat, bdat, out. cbn [rev cd_R cd_T].
  destruct (bare n n' P P') as [B1 B2]. destruct (bare n' n P' P) as [B3 B4]. rewrite B1, B2, B3, B4. reflexivity.
Qed.
Definition ok_inc (n : C) : Prop := passive beta n /\ steep n.
Lemma passive_nonzero n : passive beta n -> n <> RtoC 0.
Proof. intros (H & _). apply C_neq_Re. lra. Qed.
Lemma couplings_cons ns coh bcoh a afi s sfi :
  couplings pol beta ns coh bcoh (a :: afi) (s :: sfi) =
  let! c := match s with
            | None => couple_interface pol beta (nth a ns (RtoC 0)) (nth (a + 1) ns (RtoC 0))
            | Some j => Ok (couple_stack (nth j coh no_data) (nth j bcoh no_data))
            end in
  let! r := couplings pol beta ns coh bcoh afi sfi in Ok (c :: r).
Proof. reflexivity. Qed.
Lemma couplings_all ns coh bcoh : forall l n k j0 pre p1 p2,
  ok_inc n -> Forall (fun s => ok_inc (fst (snd s))) l ->
  ns = pre ++ n :: concat (map seg_n l) -> length pre = (k - 1)%nat -> (1 <= k)%nat ->
  coh = p1 ++ map (dat) (map st_j (x_stacks n k l)) -> length p1 = j0 ->
  bcoh = p2 ++ map (bdat) (map st_j (x_stacks n k l)) -> length p2 = j0 ->
  couplings pol beta ns coh bcoh ((k - 1)%nat :: x_afi k l) (x_sfi j0 l) = Ok (map jcpl (joints n l)).
Proof.
  induction l as [|[cl [n1 d1]] l IH]; intros n k j0 pre p1 p2 On Ol E Hk K Ec L1 Eb L2; [reflexivity|].
  assert (O1 : ok_inc n1) by exact (Forall_inv Ol).
  assert (E2 : ns = (pre ++ n :: map fst cl) ++ n1 :: concat (map seg_n l)).
  { rewrite E. cbn [map concat]. unfold seg_n at 1. cbn [fst snd]. rewrite <- !app_assoc. reflexivity. }
  assert (Q : length (pre ++ n :: map fst cl) = (k + length cl + 1 - 1)%nat).
  { rewrite app_length. cbn [length]. rewrite map_length. lia. }
  cbn [x_afi x_sfi joints fst snd map].
  destruct cl as [|x cl].
  - rewrite couplings_cons. cbn [length] in *.
    replace (nth (k - 1) ns (RtoC 0)) with n by (rewrite E, <- Hk; symmetry; apply nth_middle).
    replace (nth (k - 1 + 1) ns (RtoC 0)) with n1.
    2:{ rewrite E2. replace (k - 1 + 1)%nat with (length (pre ++ n :: map fst ([] : list (C * R)))) by (rewrite Q; lia).
        symmetry. apply nth_middle. }
    rewrite couple_bare by (apply On || apply O1). cbn [bindR].
    assert (I := IH n1 (k + 0 + 1)%nat j0 (pre ++ [n]) p1 p2 O1 (Forall_inv_tail Ol) E2 Q ltac:(lia) Ec L1 Eb L2).
    replace (k + 0 + 1 - 1)%nat with (k + 0)%nat in I by lia. rewrite I. reflexivity.
  - set (cl1 := x :: cl) in *.
    assert (Ec' : coh = p1 ++ dat (n, cl1, n1) :: map dat (map st_j (x_stacks n1 (k + length cl1 + 1) l))).
    { rewrite Ec. reflexivity. }
    assert (Eb' : bcoh = p2 ++ bdat (n, cl1, n1) :: map bdat (map st_j (x_stacks n1 (k + length cl1 + 1) l))).
    { rewrite Eb. reflexivity. }
    rewrite couplings_cons.
    replace (nth j0 coh no_data) with (dat (n, cl1, n1)) by (rewrite Ec', <- L1; symmetry; apply nth_middle).
    replace (nth j0 bcoh no_data) with (bdat (n, cl1, n1)) by (rewrite Eb', <- L2; symmetry; apply nth_middle).
    cbn [bindR].
    assert (I := IH n1 (k + length cl1 + 1)%nat (j0 + 1)%nat (pre ++ n :: map fst cl1) (p1 ++ [dat (n, cl1, n1)])
               (p2 ++ [bdat (n, cl1, n1)]) O1 (Forall_inv_tail Ol) E2 Q ltac:(lia)).
    replace (k + length cl1 + 1 - 1)%nat with (k + length cl1)%nat in I by lia.
    rewrite I; [reflexivity| | | |].
    + rewrite Ec', <- app_assoc. reflexivity.
    + rewrite app_length. cbn. lia.
    + rewrite Eb', <- app_assoc. reflexivity.
    + rewrite app_length. cbn. lia.
Qed.
(** The single-pass fractions of the inner incoherent layers. *)
Definition pass_of (s : seg) : R :=
  match snd (snd s) with
  | Some d => raise30 (exp (- 4 * PI * d * Im (fst (snd s) * cos_in beta (fst (snd s)))%C / lam))
  | None => 0
  end.
Definition finite_seg (s : seg) : Prop := snd (snd s) <> None.
Lemma passes ns ds : forall l n k pre dpre,
  ns = pre ++ n :: concat (map seg_n l) -> length pre = (k - 1)%nat -> (1 <= k)%nat ->
  ds = dpre ++ concat (map seg_d l) -> length dpre = k ->
  Forall finite_seg (removelast l) ->
  mapRR (single_pass lam beta ns ds) (removelast (x_afi k l)) = Ok (map pass_of (removelast l)).
Proof.
  induction l as [|[cl [n1 d1]] l IH]; intros n k pre dpre E Hk K Ed Hd F; [reflexivity|].
  assert (E2 : ns = (pre ++ n :: map fst cl) ++ n1 :: concat (map seg_n l)).
  { rewrite E. cbn [map concat]. unfold seg_n at 1. cbn [fst snd]. rewrite <- !app_assoc. reflexivity. }
  assert (Q : length (pre ++ n :: map fst cl) = (k + length cl + 1 - 1)%nat).
  { rewrite app_length. cbn [length]. rewrite map_length. lia. }
  assert (Ed2 : ds = (dpre ++ map (fun x => Some (snd x)) cl) ++ d1 :: concat (map seg_d l)).
  { rewrite Ed. cbn [map concat]. unfold seg_d at 1. cbn [fst snd]. rewrite <- !app_assoc. reflexivity. }
  destruct l as [|s l]; [reflexivity|].
  cbn [x_afi fst snd]. 
  assert (R1 : forall X (x y : X) m, removelast (x :: y :: m) = x :: removelast (y :: m)) by reflexivity.
  rewrite R1. rewrite R1 in F |- *.
  cbn [mapRR map].
  assert (S1 : single_pass lam beta ns ds (k + length cl) = Ok (pass_of (cl, (n1, d1)))).
  { unfold single_pass, pass_of. cbn [fst snd].
    replace (nth (k + length cl) ds None) with d1.
    2:{ rewrite Ed2. replace (k + length cl)%nat with (length (dpre ++ map (fun x : C * R => Some (snd x)) cl)).
        - symmetry. apply nth_middle.
        - rewrite app_length, map_length. lia. }
    replace (nth (k + length cl) ns (RtoC 0)) with n1.
    2:{ rewrite E2. replace (k + length cl)%nat with (length (pre ++ n :: map fst cl)) by lia. symmetry. apply nth_middle. }
    apply Forall_inv in F. unfold finite_seg in F. cbn [snd] in F. destruct d1; [reflexivity|congruence]. }
  rewrite S1. cbn [bindR].
  assert (Ed3 : ds = (dpre ++ map (fun x : C * R => Some (snd x)) cl ++ [d1]) ++ concat (map seg_d (s :: l))).
  { rewrite Ed2, <- !app_assoc. reflexivity. }
  assert (I := IH n1 (k + length cl + 1)%nat (pre ++ n :: map fst cl) (dpre ++ map (fun x => Some (snd x)) cl ++ [d1])
               E2 Q ltac:(lia) Ed3 ltac:(rewrite !app_length, map_length; cbn; lia) (Forall_inv_tail F)).
  cbn [x_afi] in I. rewrite I. reflexivity.
Qed.
Lemma joints_length l : forall n, length (joints n l) = length l.
Proof. induction l as [|s l IH]; intros n; [reflexivity|]. cbn [joints length]. now rewrite IH. Qed.
(** ** The run of [inc_tmm] *)
Definition run_cs (n0 : C) (l : list seg) : list cpl := map raise_T (map jcpl (joints n0 l)).
Definition run_Ps (l : list seg) : list R := map pass_of (removelast l).
Definition run_Ls (n0 : C) (l : list seg) : list rmat :=
  map (fun pc => inner_matrix (fst pc) (snd pc)) (combine (run_Ps l) (tl (run_cs n0 l))).
Definition run_Lt (n0 : C) (l : list seg) : rmat :=
  fold_left rmul (run_Ls n0 l) (first_matrix (hd (Cpl 0 0 0 0) (run_cs n0 l))).
Definition run_T (n0 : C) (l : list seg) : R := 1 / r00 (run_Lt n0 l).
Definition run_R (n0 : C) (l : list seg) : R := r10 (run_Lt n0 l) / r00 (run_Lt n0 l).
Definition run_VW (n0 : C) (l : list seg) : list (R * R) := intensities (run_Ls n0 l) (run_T n0 l).
Definition run_FB (n0 : C) (l : list seg) : list (R * R) :=
  map (stack_FB (run_VW n0 l) (run_Ps l)) (x_ifs 0 l).
Definition run_coh (n0 : C) (l : list seg) : list coh_data := map dat (map st_j (x_stacks n0 1 l)).
Definition run_bcoh (n0 : C) (l : list seg) : list coh_data := map bdat (map st_j (x_stacks n0 1 l)).
Definition run_pe (n0 : C) (l : list seg) : list R :=
  1 :: map (entering (run_VW n0 l) (run_Ps l) (run_cs n0 l) (run_FB n0 l) (run_coh n0 l) (run_bcoh n0 l))
         (combine (seq 1 (length l)) (x_sfi 0 l)).
(** A structure: semi-infinite behind, all inner incoherent layers of finite thickness. *)
Definition structure (l : list seg) : Prop :=
  exists inner_ cl nf, l = inner_ ++ [(cl, (nf, None))] /\ Forall finite_seg inner_.
Lemma inc_tmm_run n0 (s0 : C) l : structure l -> (n0 * s0 = beta)%C ->
  ok_inc n0 -> Forall (fun s => ok_inc (fst (snd s))) l ->
  exists g, (g_stack_from_inc g = None :: x_sfi 0 l /\ g_stack_from_all g = None :: x_sfa 0 l) /\
  inc_tmm pol (all_n n0 l) (all_d l) (all_c l) s0 lam
  = Ok (IncData (clip_T (run_T n0 l)) (clip_R (run_R n0 l)) (run_VW n0 l) (run_coh n0 l) (run_bcoh n0 l)
          (run_FB n0 l) (run_pe n0 l) g).
Proof.
  intros (inn & clf & nf & El & Fi) Hb O0 Ol.
  assert (Hl : l <> []) by (rewrite El; now destruct inn).
  destruct (group_all n0 l Hl) as (od & on & ifa & G).
  { intros s Hs. rewrite El, last_last in Hs. rewrite <- Hs. reflexivity. }
  eexists. split; [|unfold inc_tmm; unfold all_n at 1; cbv beta iota].
  2:{ rewrite Hb. destruct (Rlt_dec epsilon100 (Rabs (Im beta))) as [H|_].
      { exfalso. cbn in H. rewrite Rabs_R0 in H. assert (Q := eps_pos). lra. }
      rewrite G. cbn [bindR g_stack_n g_stack_d g_all_from_stack g_all_from_inc g_stack_from_inc g_inc_from_stack tl].
      assert (NZ : Forall nonzero l).
      { eapply Forall_impl; [|exact Ol]. intros s [P _]. now apply passive_nonzero. }
      assert (N0 : n0 <> RtoC 0) by (apply passive_nonzero, O0).
      rewrite (runs coh_tmm dat (all_n n0 l)) with (pre := []); [|now intros; apply call_coh|exact N0|exact NZ|reflexivity|reflexivity|lia].
      cbn [bindR].
      rewrite (runs coh_tmm_reverse bdat (all_n n0 l)) with (pre := []); [|now intros; apply call_bcoh|exact N0|exact NZ|reflexivity|reflexivity|lia].
      cbn [bindR]. unfold inner at 1. cbn [tl].
      rewrite (passes (all_n n0 l) (all_d l) l n0 1 [] [None]); [|reflexivity|reflexivity|lia|reflexivity|reflexivity|].
      2:{ rewrite El, removelast_last. exact Fi. }
      cbn [bindR].
      assert (CA := couplings_all (all_n n0 l) (run_coh n0 l) (run_bcoh n0 l) l n0 1 0 [] [] [] O0 Ol eq_refl eq_refl
                      (le_n 1) eq_refl eq_refl eq_refl eq_refl).
      cbn [Nat.sub] in CA. unfold run_coh at 1, run_bcoh at 1 in CA. rewrite CA. cbn [bindR].
      fold (run_cs n0 l). fold (run_coh n0 l). fold (run_bcoh n0 l). fold (run_Ps l).
      assert (LC : length (run_cs n0 l) = length l) by (unfold run_cs; rewrite !map_length; apply joints_length).
      destruct (run_cs n0 l) as [|c0 cr] eqn:EC; [destruct l; [congruence|discriminate]|].
      rewrite LC. f_equal.
      unfold run_pe, run_FB, run_VW, run_T, run_R, run_Lt, run_Ls. rewrite EC. cbn [hd tl].
      reflexivity. }
  split; reflexivity.
Qed.
End Run.

(** * The intensities solve the net-radiation equations *)
(** At each joint the light going on is what is transmitted forwards plus what is reflected
    of the light coming back, and the light returned is the reflected part of the incident
    light plus the transmitted part of the light coming back; [a], [b] are the intensities
    towards and away from the joint in the layer in front of it, ([V], [W]) those just behind
    it. A pass through an inner layer multiplies by [P]. Nothing comes back from behind. *)
Fixpoint net_radiation (a b : R) (cs : list cpl) (Ps : list R) (VW : list (R * R)) : Prop :=
  match cs, VW with
  | c :: cs', (V, W) :: VW' =>
      V = c_T c * a + c_R' c * W /\ b = c_R c * a + c_T' c * W /\
      match cs', Ps, VW' with
      | [], [], [] => W = 0
      | _ :: _, P :: Ps', _ :: _ => net_radiation (V * P) (W / P) cs' Ps' VW'
      | _, _, _ => False
      end
  | _, _ => False
  end.
Lemma first_matrix_net c V W a b : c_T c <> 0 -> rapply (first_matrix c) (V, W) = (a, b) ->
  V = c_T c * a + c_R' c * W /\ b = c_R c * a + c_T' c * W.
Proof.
  intros H E. unfold rapply, first_matrix, rdiv, bracket in E. cbn [r00 r01 r10 r11 fst snd] in E.
  assert (E1 := f_equal fst E). assert (E2 := f_equal snd E). cbn [fst snd] in E1, E2. rewrite <- E1, <- E2. split; field; exact H.
Qed.
Lemma inner_matrix_net P c V W : c_T c <> 0 -> P <> 0 ->
  rapply (inner_matrix P c) (V, W)
  = (fst (rapply (first_matrix c) (V, W)) / P, snd (rapply (first_matrix c) (V, W)) * P).
Proof.
  intros H HP. unfold inner_matrix, rapply, first_matrix, rdiv, bracket, rmul. cbn [r00 r01 r10 r11 fst snd].
  f_equal; field; auto.
Qed.
Lemma rapply_mul a b v : rapply (rmul a b) v = rapply a (rapply b v).
Proof. unfold rapply, rmul. cbn [r00 r01 r10 r11 fst snd]. f_equal; ring. Qed.
Lemma intensities_hd l T : hd (T, 0) (intensities l T) = fold_right rapply (T, 0) l.
Proof. induction l as [|m l IH]; [reflexivity|]. cbn [intensities hd fold_right]. now rewrite IH. Qed.
Lemma fold_left_rapply l : forall m v, rapply (fold_left rmul l m) v = rapply m (fold_right rapply v l).
Proof. induction l as [|x l IH]; intros m v; [reflexivity|]. cbn [fold_left fold_right]. rewrite IH, rapply_mul. reflexivity. Qed.
Lemma intensities_length l T : length (intensities l T) = S (length l).
Proof. induction l as [|m l IH]; [reflexivity|]. cbn [intensities length]. now rewrite IH. Qed.
Lemma intensities_cons l T : exists v r, intensities l T = v :: r.
Proof. destruct l; eexists; eexists; reflexivity. Qed.
Lemma intensities_last l T : last (intensities l T) (0, 0) = (T, 0).
Proof.
  induction l as [|m l IH]; [reflexivity|]. cbn [intensities].
  destruct (intensities_cons l T) as (v & r & E). rewrite E in *. exact IH.
Qed.
Lemma net_solution : forall cr c0 Ps T a b,
  Forall (fun c => c_T c <> 0) (c0 :: cr) -> Forall (fun P => P <> 0) Ps -> length Ps = length cr ->
  let Ls := map (fun pc => inner_matrix (fst pc) (snd pc)) (combine Ps cr) in
  rapply (first_matrix c0) (hd (T, 0) (intensities Ls T)) = (a, b) ->
  net_radiation a b (c0 :: cr) Ps (intensities Ls T).
Proof.
  induction cr as [|c1 cr IH]; intros c0 Ps T a b FT FP HL Ls E.
  - destruct Ps; [|discriminate]. cbn [combine map] in Ls. unfold Ls in *. cbn [intensities hd] in *.
    cbn [net_radiation]. destruct (first_matrix_net c0 T 0 a b (Forall_inv FT) E) as [E1 E2]. auto.
  - destruct Ps as [|P Ps]; [discriminate|]. injection HL as HL.
    unfold Ls in *. cbn [combine map fst snd intensities hd] in *.
    set (Ls' := map (fun pc => inner_matrix (fst pc) (snd pc)) (combine Ps cr)) in *.
    destruct (hd (T, 0) (intensities Ls' T)) as [V' W'] eqn:EH.
    assert (T1 : c_T c1 <> 0) by exact (Forall_inv (Forall_inv_tail FT)). assert (HP : P <> 0) by exact (Forall_inv FP).
    rewrite inner_matrix_net in E |- * by assumption.
    destruct (rapply (first_matrix c1) (V', W')) as [a1 b1] eqn:E1. cbn [fst snd] in *.
    destruct (first_matrix_net c0 _ _ a b (Forall_inv FT) E) as [N1 N2].
    specialize (IH c1 Ps T a1 b1 (Forall_inv_tail FT) (Forall_inv_tail FP) HL). cbv zeta in IH. fold Ls' in IH.
    rewrite EH in IH. specialize (IH E1).
    destruct (intensities_cons Ls' T) as (v & r & Ei). rewrite Ei in *.
    cbn [net_radiation]. split; [exact N1|]. split; [exact N2|].
    replace (a1 / P * P) with a1 by (field; exact HP). replace (b1 * P / P) with b1 by (field; exact HP). exact IH.
Qed.
(** Physical couplings: nothing is created at a joint. *)
Definition phys (c : cpl) : Prop := 0 < c_T c /\ 0 <= c_R c /\ c_R c + c_T c <= 1.
Definition phys' (c : cpl) : Prop := 0 < c_T' c /\ 0 <= c_R' c /\ c_R' c + c_T' c <= 1.
Lemma joint_bounds c V W : phys c -> 0 < V -> 0 <= W <= V -> phys' c \/ W = 0 ->
  0 < fst (rapply (first_matrix c) (V, W)) /\
  0 <= snd (rapply (first_matrix c) (V, W)) <= fst (rapply (first_matrix c) (V, W)).
Proof.
  intros (T & R1 & S1) HV HW HX.
  destruct (rapply (first_matrix c) (V, W)) as [a b] eqn:E.
  destruct (first_matrix_net c V W a b ltac:(lra) E) as [E1 E2]. cbn [fst snd].
  destruct HX as [(T' & R2 & S2)|HX].
  - assert (0 < V - c_R' c * W) by nra. assert (0 < a) by nra. nra.
  - subst W. rewrite !Rmult_0_r, !Rplus_0_r in *. assert (0 < a) by nra. nra.
Qed.
Lemma intensities_bounds : forall cr Ps T, 0 < T ->
  Forall phys cr -> Forall phys' (removelast cr) -> Forall (fun P => 0 < P <= 1) Ps -> length Ps = length cr ->
  let Ls := map (fun pc => inner_matrix (fst pc) (snd pc)) (combine Ps cr) in
  Forall (fun v => 0 < fst v /\ 0 <= snd v <= fst v) (intensities Ls T).
Proof.
  induction cr as [|c1 cr IH]; intros Ps T HT F F' FP HL Ls.
  - destruct Ps; [|discriminate]. constructor; [cbn; lra|constructor].
  - destruct Ps as [|P Ps]; [discriminate|]. injection HL as HL.
    unfold Ls. cbn [combine map fst snd intensities].
    assert (F'' : Forall phys' (removelast cr)).
    { destruct cr as [|c2 cr]; [constructor|]. exact (Forall_inv_tail F'). }
    specialize (IH Ps T HT (Forall_inv_tail F) F'' (Forall_inv_tail FP) HL). cbv zeta in IH.
    set (Ls' := map (fun pc => inner_matrix (fst pc) (snd pc)) (combine Ps cr)) in *.
    constructor; [|exact IH].
    assert (HH : 0 < fst (hd (T, 0) (intensities Ls' T)) /\
                 0 <= snd (hd (T, 0) (intensities Ls' T)) <= fst (hd (T, 0) (intensities Ls' T))).
    { destruct (intensities_cons Ls' T) as (v & r & Ei). rewrite Ei in *. exact (Forall_inv IH). }
    assert (HX : phys' c1 \/ snd (hd (T, 0) (intensities Ls' T)) = 0).
    { destruct cr as [|c2 cr]; [|left; exact (Forall_inv F')]. right. unfold Ls'. rewrite combine_nil. reflexivity. }
    destruct (hd (T, 0) (intensities Ls' T)) as [V W]. cbn [fst snd] in HH, HX.
    assert (P1 := Forall_inv F). destruct (Forall_inv FP) as [HP0 HP1].
    destruct (joint_bounds c1 V W P1 (proj1 HH) (proj2 HH) HX) as (A1 & A2).
    rewrite inner_matrix_net by (try (destruct P1; lra); lra). cbn [fst snd].
    destruct (rapply (first_matrix c1) (V, W)) as [a b]. cbn [fst snd] in *.
    assert (Q : 0 < / P) by now apply Rinv_0_lt_compat.
    assert (Q1 : 1 <= / P) by (rewrite <- Rinv_1; apply Rinv_le_contravar; lra).
    unfold Rdiv. split; [nra|]. split; nra.
Qed.

(** * Energy at one joint *)
Lemma total_app l m : total (l ++ m) = total l + total m.
Proof. induction l as [|x l IH]; cbn [app total]; [ring|]. rewrite IH. ring. Qed.
Lemma total_removelast l : l <> [] -> total (removelast l) = total l - last l 0.
Proof.
  intros H. destruct (exists_last H) as (m & x & ->). rewrite removelast_last, last_last, total_app. cbn. ring.
Qed.
Lemma removelast_Forall {A} (P : A -> Prop) l : Forall P l -> Forall P (removelast l).
Proof.
  induction l as [|x l IH]; intros F; [constructor|]. destruct l as [|y l]; [constructor|].
  change (removelast (x :: y :: l)) with (x :: removelast (y :: l)).
  constructor; [exact (Forall_inv F)|apply IH; exact (Forall_inv_tail F)].
Qed.
Lemma removelast_length {A} (l : list A) : length (removelast l) = (length l - 1)%nat.
Proof. induction l as [|x [|y l] IH]; [reflexivity|reflexivity|]. change (removelast (x :: y :: l)) with (x :: removelast (y :: l)).
  cbn [length] in *. rewrite IH. lia. Qed.
Section Energy.
Context (pol : string) (lam beta : R) (Hpol : valid_pol pol) (Hlam : 0 < lam) (Hbeta : 0 <= beta).
Lemma half n cl n' : passive beta n -> passive beta n' -> Forall (medium_ok pol lam beta) cl ->
  let d := out pol lam beta n (cos_in beta n) cl n' in
  exists A, absorp_in_each_layer d = Ok A /\ length (inner A) = length cl /\
    Forall (fun x => 0 <= x) (inner A) /\ total (inner A) = cd_power_entering d - cd_T d /\
    0 < cd_T d <= cd_power_entering d /\ 0 <= cd_R d /\
    (transparent beta n -> cd_R d + cd_power_entering d = 1) /\
    (Forall (fun x => transparent beta (fst x)) cl -> cd_T d = cd_power_entering d).
Proof.
  intros Hn Hn' H d.
  destruct (powers_out_passive pol lam beta n cl n' Hpol Hlam Hbeta Hn H Hn') as (HP & HE & HT).
  fold d in HP, HE, HT.
  set (t := (1 / m00 (mt pol lam beta n cl n'))%C) in *.
  set (a := A0 pol n (cos_in beta n)) in *.
  set (F := fluxes pol lam beta cl n' t) in *.
  assert (Ha : 0 < a).
  { unfold a. rewrite A0_cond by exact Hpol. now destruct (passive_med pol beta n Hpol Hbeta Hn) as (_ & _ & P & _). }
  assert (HFm : nonincr F) by (unfold F; now apply fluxes_nonincr).
  assert (Hm := m00_nonzero_passive pol lam beta n cl n' Hpol Hlam Hbeta Hn H Hn').
  assert (Htpos : 0 < Cmod t).
  { apply Cmod_gt_0. unfold t. intros E.
    assert (Q : (m00 (mt pol lam beta n cl n') * (1 / m00 (mt pol lam beta n cl n')) = 1)%C) by (field; exact Hm).
    rewrite E in Q. apply (f_equal Re) in Q. cbn in Q. lra. }
  assert (HFl : 0 < last F 0).
  { unfold F. rewrite fluxes_last, fl_forward.
    destruct (passive_med pol beta n' Hpol Hbeta Hn') as (_ & _ & P & _).
    apply Rmult_lt_0_compat; [exact P|]. now apply pow_lt. }
  assert (HFh := nonincr_last F HFm 0).
  assert (NF : F <> []) by (unfold F; destruct cl; discriminate).
  assert (LF : length F = S (length cl)) by (unfold F; apply fluxes_length).
  set (G := map (fun f => f / a) F) in *.
  assert (GN : nonincr G) by (unfold G; now apply nonincr_scale).
  assert (GL : last G 0 = cd_T d).
  { unfold G. rewrite HT. clear -NF. induction F as [|f F' IH]; [congruence|].
    destruct F' as [|g F'']; [reflexivity|]. exact (IH ltac:(discriminate)). }
  assert (GH : hd 0 G = cd_power_entering d) by (unfold G; rewrite HE; destruct F; [congruence|reflexivity]).
  assert (NG : G <> []) by (unfold G; destruct F; [congruence|discriminate]).
  assert (LG : length G = S (length cl)) by (unfold G; now rewrite map_length).
  assert (TP : 0 < cd_T d <= cd_power_entering d).
  { rewrite HT, HE. unfold Rdiv. assert (Q : 0 < / a) by now apply Rinv_0_lt_compat. split; [nra|].
    apply Rmult_le_compat_r; lra. }
  assert (DN : Forall (fun x => 0 <= x) (drops G)) by (apply drops_nonneg; [exact GN|rewrite GL; lra]).
  assert (IN : inner (map clamp0 (drops (1 :: G))) = removelast (drops G)).
  { destruct G as [|g G']; [congruence|]. change (drops (1 :: g :: G')) with ((1 - g) :: drops (g :: G')).
    cbn [map]. unfold inner. cbn [tl]. rewrite clamp_id by exact DN. reflexivity. }
  exists (map clamp0 (drops (1 :: G))).
  split; [unfold absorp_in_each_layer; rewrite HP; reflexivity|].
  rewrite IN. split; [rewrite removelast_length, drops_length; lia|].
  split; [now apply removelast_Forall|].
  assert (ND : drops G <> []).
  { intros E. apply (f_equal (@length R)) in E. rewrite drops_length in E. cbn in E. lia. }
  split; [rewrite total_removelast, drops_total, drops_last, GH, GL by assumption; reflexivity|].
  split; [exact TP|]. split; [unfold d, out; cbn [cd_R]; apply pow2_ge_0|]. split.
  - intros H0. destruct (transparent_cond pol beta n Hpol Hbeta H0) as (HI & _).
    unfold d, out. cbn [cd_R cd_power_entering]. rewrite pev_fl, fl_incident by assumption.
    fold a. unfold R_from_r. rewrite <- (A0_cond pol beta n Hpol). fold a. field. lra.
  - intros FT. rewrite HT, HE. f_equal. unfold F. rewrite fluxes_last. symmetry.
    assert (Q := fluxes_const pol lam beta cl n' t Hpol Hlam Hbeta).
    rewrite Q; auto.
    clear - FT H. induction cl as [|x cl IH]; [constructor|].
    constructor; [split; [exact (Forall_inv FT)|exact (proj1 (proj2 (Forall_inv H)))]|].
    apply IH; [exact (Forall_inv_tail H)|exact (Forall_inv_tail FT)].
Qed.
End Energy.

(** * The loop over the incoherent layers *)
Notation diff v := (fst v - snd v).
(** What one turn contributes: [v] in front of the joint, [v'] behind it. *)
Definition stepok (D : inc_data) (s : option nat) (cl : list (C * R)) (v v' : R * R) : Prop :=
  match s with
  | None => cl = [] /\ diff v' = diff v
  | Some j => exists S,
      stack_absorp (fst (nth j (id_FB D) (0, 0))) (snd (nth j (id_FB D) (0, 0)))
        (nth j (id_coh D) no_data) (nth j (id_bcoh D) no_data) = Ok S /\
      fst (nth j (id_FB D) (0, 0)) * cd_power_entering (nth j (id_coh D) no_data)
        - snd (nth j (id_FB D) (0, 0)) * cd_T (nth j (id_bcoh D) no_data) = diff v /\
      length S = length cl /\ Forall (fun x => 0 <= x) S /\ total S = diff v - diff v'
  end.
Fixpoint steps (D : inc_data) (v : R * R) (l : list seg) (sfi : list (option nat)) (vws : list (R * R)) : Prop :=
  match l, sfi, vws with
  | s :: l', x :: sfi', v' :: vws' => stepok D x (fst s) v v' /\ steps D v' l' sfi' vws'
  | [], [], [] => True
  | _, _, _ => False
  end.
Lemma steps_of_index D : forall l sfi vws v, length sfi = length l -> length vws = length l ->
  (forall i, (i < length l)%nat ->
     stepok D (nth i sfi None) (fst (nth i l ([], (RtoC 0, None)))) (nth i (v :: vws) (0, 0)) (nth i vws (0, 0))) ->
  steps D v l sfi vws.
Proof.
  induction l as [|s l IH]; intros [|x sfi] [|v' vws] v H1 H2 H; try discriminate; [exact I|].
  split; [exact (H 0%nat ltac:(cbn; lia))|].
  apply IH; [now injection H1|now injection H2|]. intros i Hi. exact (H (S i) ltac:(cbn; lia)).
Qed.
(** Entries of layers: none negative, nothing in the transparent incoherent layers. *)
Definition entry (c : string) (x : R) : Prop := 0 <= x /\ (c = "i"%string -> x = 0).
Lemma entry_repeat S : Forall (fun x => 0 <= x) S -> Forall2 entry (repeat "c"%string (length S)) S.
Proof.
  induction S as [|x S IH]; intros F; constructor; [|apply IH; exact (Forall_inv_tail F)].
  split; [exact (Forall_inv F)|discriminate].
Qed.
Lemma absorp_loop_cons D p p' pe s sfi :
  absorp_loop D (p :: p' :: pe) (s :: sfi) =
  match s with
  | None => let! r := absorp_loop D (p' :: pe) sfi in Ok ((p - p') :: r)
  | Some j =>
      let d := nth j (id_coh D) no_data in let b := nth j (id_bcoh D) no_data in
      let FB := nth j (id_FB D) (0, 0) in
      let exiting := fst FB * cd_power_entering d - snd FB * cd_T b in
      let! a := stack_absorp (fst FB) (snd FB) d b in
      let! r := absorp_loop D (p' :: pe) sfi in
      Ok ((p - exiting) :: a ++ r)
  end.
Proof. reflexivity. Qed.
Lemma loop_entries D : forall l sfi vws v p, l <> [] -> steps D v l sfi vws ->
  exists As, absorp_loop D (p :: map (fun v => diff v) vws) sfi = Ok ((p - diff v) :: As) /\
    Forall2 entry (removelast (concat (map seg_c l))) As /\
    total As = diff v - diff (last vws (0, 0)).
Proof.
  induction l as [|[cl nd] l IH]; intros [|x sfi] [|v' vws] v p Hl H; try contradiction.
  destruct H as [H HS]. cbn [fst] in H. cbn [map]. rewrite absorp_loop_cons.
  assert (Rest : exists As, absorp_loop D (diff v' :: map (fun v => diff v) vws) sfi = Ok As /\
            total As = diff v' - diff (last (v' :: vws) (0, 0)) /\
            forall S, Forall2 entry (repeat "c"%string (length cl)) S ->
                      Forall2 entry (removelast (concat (map seg_c ((cl, nd) :: l)))) (S ++ As)).
  { destruct l as [|s l].
    - destruct sfi, vws; try contradiction. exists []. split; [reflexivity|]. split; [cbn; ring|].
      intros S HF. cbn [map concat]. unfold seg_c. cbn [fst]. rewrite !app_nil_r, removelast_last. exact HF.
    - destruct (IH sfi vws v' (diff v') ltac:(discriminate) HS) as (As & E & F & T).
      exists ((diff v' - diff v') :: As). split; [exact E|]. split.
      + cbn [total]. rewrite T. destruct vws as [|w vws]; [destruct sfi; contradiction|].
        change (last (v' :: w :: vws) (0, 0)) with (last (w :: vws) (0, 0)). ring.
      + intros S HF. cbn [map concat]. unfold seg_c at 1. cbn [fst]. rewrite <- app_assoc.
        rewrite removelast_app by (cbn; discriminate). apply Forall2_app; [exact HF|].
        cbn [app]. assert (NE : seg_c s ++ concat (map seg_c l) <> []).
        { intros Q. apply (f_equal (@length string)) in Q. unfold seg_c at 1 in Q. rewrite !app_length in Q. cbn in Q. lia. }
        destruct (seg_c s ++ concat (map seg_c l)) as [|y m] eqn:Em; [congruence|].
        change (removelast ("i"%string :: y :: m)) with ("i"%string :: removelast (y :: m)).
        constructor; [split; [lra|intros _; ring]|]. rewrite <- Em. exact F. }
  destruct Rest as (As & E & T & F). rewrite E. cbn [bindR].
  destruct x as [j|].
  - cbn [stepok] in H. destruct H as (S & ES & EX & LS & FS & TS). cbv zeta. rewrite ES. cbn [bindR]. rewrite EX.
    exists (S ++ As). split; [reflexivity|]. split.
    + apply F. rewrite <- LS. now apply entry_repeat.
    + rewrite total_app, TS, T. ring.
  - destruct H as [-> HD]. exists As. rewrite HD. split; [reflexivity|]. split; [exact (F [] (Forall2_nil _))|]. rewrite T, HD. ring.
Qed.
(** ** Looking up the stack of a joint *)
Lemma sfi_length : forall l j0, length (x_sfi j0 l) = length l.
Proof. induction l as [|[cl nd] l IH]; intros j0; [reflexivity|]. cbn [x_sfi fst]. destruct cl; cbn [length]; now rewrite IH. Qed.
Lemma sfi_lookup : forall l n k i0 j0 i, (i < length l)%nat ->
  exists jt, nth_error (joints n l) i = Some jt /\ snd (fst jt) = fst (nth i l ([], (RtoC 0, None))) /\
  match nth i (x_sfi j0 l) None with
  | None => snd (fst jt) = []
  | Some j => exists j' kk, j = (j0 + j')%nat /\ nth_error (x_ifs i0 l) j' = Some (i0 + i)%nat /\
                            nth_error (x_stacks n k l) j' = Some (jt, kk)
  end.
Proof.
  induction l as [|[cl [n1 d1]] l IH]; intros n k i0 j0 i Hi; [cbn in Hi; lia|].
  destruct i as [|i].
  - exists (n, cl, n1). split; [reflexivity|]. split; [reflexivity|]. cbn [x_sfi fst snd]. destruct cl as [|x cl]; [reflexivity|].
    cbn [nth]. exists 0%nat, k. rewrite !Nat.add_0_r. auto.
  - cbn [length] in Hi. cbn [x_sfi x_ifs x_stacks joints fst snd nth_error nth].
    destruct cl as [|x cl].
    + destruct (IH n1 (k + length (@nil (C * R)) + 1)%nat (i0 + 1)%nat j0 i ltac:(lia)) as (jt & A & B & M).
      exists jt. split; [exact A|]. split; [exact B|]. cbn [nth]. destruct (nth i (x_sfi j0 l) None); [|exact M].
      destruct M as (j' & kk & E1 & E2 & E3). exists j', kk. split; [exact E1|]. split; [rewrite E2; f_equal; lia|exact E3].
    + destruct (IH n1 (k + length (x :: cl) + 1)%nat (i0 + 1)%nat (j0 + 1)%nat i ltac:(lia)) as (jt & A & B & M).
      exists jt. split; [exact A|]. split; [exact B|]. cbn [nth]. destruct (nth i (x_sfi (j0 + 1) l) None); [|exact M].
      destruct M as (j' & kk & E1 & E2 & E3). exists (S j'), kk. split; [lia|]. split; [|exact E3].
      cbn [nth_error]. rewrite E2. f_equal. lia.
Qed.
Lemma net_index : forall cs Ps VW a b, net_radiation a b cs Ps VW -> Forall (fun P => P = 1) Ps ->
  forall i, (i < length cs)%nat ->
  let v := nth i ((a, b) :: VW) (0, 0) in let v' := nth i VW (0, 0) in let c := nth i cs (Cpl 0 0 0 0) in
  fst v' = c_T c * fst v + c_R' c * snd v' /\ snd v = c_R c * fst v + c_T' c * snd v'.
Proof.
  induction cs as [|c cs IH]; intros Ps VW a b H F i Hi; [cbn in Hi; lia|].
  destruct VW as [|[V W] VW]; [contradiction|]. cbn [net_radiation] in H. destruct H as (H1 & H2 & H3).
  destruct i as [|i]; [cbn; auto|]. destruct cs as [|c1 cs]; [cbn in Hi; lia|].
  destruct Ps as [|P Ps]; [contradiction|]. destruct VW as [|w VW]; [contradiction|].
  assert (P1 : P = 1) by exact (Forall_inv F). subst P. rewrite Rmult_1_r in H3. unfold Rdiv in H3. rewrite Rinv_1, Rmult_1_r in H3.
  exact (IH Ps (w :: VW) V W H3 (Forall_inv_tail F) i ltac:(cbn in *; lia)).
Qed.

(** * The whole structure *)
Section Whole.
Context (pol : string) (lam beta : R) (Hpol : valid_pol pol) (Hlam : 0 < lam) (Hbeta : 0 <= beta).
(** No joint is so opaque that line 897 changes its transmittance. *)
Definition not_opaque (j : joint) : Prop :=
  let '(n, cl, n') := j in
  forall d, (coh_tmm pol (stack_n n cl n') (stack_d cl) (sin_in beta n) (cos_in beta n) lam = Ok d \/
             coh_tmm_reverse pol (stack_n n cl n') (stack_d cl) (sin_in beta n) (cos_in beta n) lam = Ok d) ->
            / 10 ^ 30 <= cd_T d.
Lemma dat_call n cl n' : n <> RtoC 0 ->
  coh_tmm pol (stack_n n cl n') (stack_d cl) (sin_in beta n) (cos_in beta n) lam = Ok (dat pol lam beta (n, cl, n')).
Proof. intros Hn. rewrite (coh_tmm_stack pol n _ _ cl n' lam beta Hpol (sin_in_mul beta n Hn)). reflexivity. Qed.
Lemma bdat_call n cl n' : n <> RtoC 0 -> n' <> RtoC 0 ->
  coh_tmm_reverse pol (stack_n n cl n') (stack_d cl) (sin_in beta n) (cos_in beta n) lam = Ok (bdat pol lam beta (n, cl, n')).
Proof.
  intros Hn Hn'. unfold coh_tmm_reverse. rewrite rev_stack_n, rev_stack_d.
  unfold stack_n at 1. fold (stack_n n cl n'). rewrite (last_stack n cl n' n), (sin_in_mul beta n Hn).
  rewrite (coh_tmm_stack pol n' _ _ (rev cl) n lam beta Hpol (sin_in_mul beta n' Hn')). reflexivity.
Qed.
Lemma raise30_id x : / 10 ^ 30 <= x -> raise30 x = x.
Proof. intros H. unfold raise30. destruct (Rlt_dec _ _); [exfalso; lra|reflexivity]. Qed.
Lemma tiny_pos : 0 < / 10 ^ 30.
Proof. apply Rinv_0_lt_compat, pow_lt. lra. Qed.
(** A joint between passive media. *)
Definition jok (j : joint) : Prop :=
  let '(n, cl, n') := j in passive beta n /\ passive beta n' /\ Forall (medium_ok pol lam beta) cl.
Lemma run_cs_plain n0 l : Forall jok (joints n0 l) -> Forall not_opaque (joints n0 l) ->
  run_cs pol lam beta n0 l = map (jcpl pol lam beta) (joints n0 l).
Proof.
  intros HP HO. unfold run_cs. revert HP HO. generalize (joints n0 l). clear n0 l. intros js HP HO.
  induction js as [|[[n cl] n'] js IH]; [reflexivity|]. cbn [map].
  rewrite IH by (exact (Forall_inv_tail HP) || exact (Forall_inv_tail HO)). f_equal.
  apply Forall_inv in HP, HO. cbn [jok not_opaque] in HP, HO. destruct HP as (P & P' & _).
  assert (N := passive_nonzero beta n P). assert (N' := passive_nonzero beta n' P').
  assert (T1 := HO _ (or_introl (dat_call n cl n' N))). assert (T2 := HO _ (or_intror (bdat_call n cl n' N N'))).
  unfold raise_T, jcpl, couple_stack. cbn [c_R c_T c_R' c_T']. now rewrite !raise30_id.
Qed.
Lemma medium_rev cl : Forall (medium_ok pol lam beta) cl -> Forall (medium_ok pol lam beta) (rev cl).
Proof. apply Forall_rev. Qed.
(** What the two directions of a joint satisfy. *)
Lemma joint_phys n cl n' : jok (n, cl, n') ->
  (transparent beta n -> phys (jcpl pol lam beta (n, cl, n'))) /\
  (transparent beta n' -> phys' (jcpl pol lam beta (n, cl, n'))).
Proof.
  intros (P & P' & F).
  destruct (half pol lam beta Hpol Hlam Hbeta n cl n' P P' F) as (A & _ & _ & _ & _ & T & R1 & S & _).
  destruct (half pol lam beta Hpol Hlam Hbeta n' (rev cl) n P' P (medium_rev _ F)) as (A' & _ & _ & _ & _ & T' & R1' & S' & _).
  unfold phys, phys', jcpl, couple_stack, dat, bdat. cbn [c_R c_T c_R' c_T'].
  split; intros H; [specialize (S H)|specialize (S' H)]; lra.
Qed.
(** One turn of the loop. *)
Lemma joint_step D s n cl n' (a b V W : R) : jok (n, cl, n') -> transparent beta n -> (transparent beta n' \/ W = 0) ->
  0 < a -> 0 <= W ->
  let c := jcpl pol lam beta (n, cl, n') in
  V = c_T c * a + c_R' c * W -> b = c_R c * a + c_T' c * W ->
  match s with
  | None => cl = []
  | Some j => nth j (id_coh D) no_data = dat pol lam beta (n, cl, n') /\
              nth j (id_bcoh D) no_data = bdat pol lam beta (n, cl, n') /\ nth j (id_FB D) (0, 0) = (a, W)
  end ->
  stepok D s cl (a, b) (V, W) /\
  (s = None -> a * c_T c - W * c_T' c = V - W) /\
  a * c_T c - W * cd_power_entering (bdat pol lam beta (n, cl, n')) = V - W.
Proof.
  intros (P & P' & F) Tn Tn' Ha HW c EV Eb HD.
  destruct (half pol lam beta Hpol Hlam Hbeta n cl n' P P' F) as (A & EA & LA & FA & TA & TT & R1 & S1 & Z).
  destruct (half pol lam beta Hpol Hlam Hbeta n' (rev cl) n P' P (medium_rev _ F)) as (A' & EA' & LA' & FA' & TA' & TT' & R1' & S1' & Z').
  specialize (S1 Tn). rewrite rev_length in LA'.
  unfold c, jcpl, couple_stack in *. cbn [c_R c_T c_R' c_T'] in *. clear c.
  change (out pol lam beta n (cos_in beta n) cl n') with (dat pol lam beta (n, cl, n')) in *.
  change (out pol lam beta n' (cos_in beta n') (rev cl) n) with (bdat pol lam beta (n, cl, n')) in *.
  set (d := dat pol lam beta (n, cl, n')) in *. set (e := bdat pol lam beta (n, cl, n')) in *.
  assert (X : a * cd_T d - W * cd_power_entering e = V - W).
  { rewrite EV. destruct Tn' as [Tn'| ->]; [specialize (S1' Tn'); replace (cd_power_entering e) with (1 - cd_R e) by lra; ring|ring]. }
  split; [|split; [|exact X]].
  - destruct s as [j|].
    + destruct HD as (H1 & H2 & H3). cbn [stepok]. rewrite H1, H2, H3. cbn [fst snd].
      unfold stack_absorp. rewrite EA. cbn [bindR]. rewrite EA'. cbn [bindR].
      eexists. split; [reflexivity|].
      assert (X2 : a * cd_power_entering d - W * cd_T e = a - b).
      { rewrite Eb. replace (cd_power_entering d) with (1 - cd_R d) by lra. ring. }
      split; [exact X2|].
      assert (LL : length (inner A) = length (rev (inner A'))) by (rewrite rev_length; lia).
      split; [rewrite map_length, combine_length, <- LL, Nat.min_id; exact LA|].
      assert (FR : Forall (fun x => 0 <= x) (rev (inner A'))) by now apply Forall_rev.
      assert (TR : total (rev (inner A')) = total (inner A')).
      { generalize (inner A'). clear. induction l as [|x l IH]; [reflexivity|]. cbn [rev total]. rewrite total_app, IH. cbn. ring. }
      assert (M : Forall (fun x => 0 <= x) (map (fun xy => a * fst xy + W * snd xy) (combine (inner A) (rev (inner A')))) /\
                  total (map (fun xy => a * fst xy + W * snd xy) (combine (inner A) (rev (inner A'))))
                  = a * total (inner A) + W * total (rev (inner A'))).
      { revert FA FR LL. generalize (inner A) (rev (inner A')). clear - Ha HW.
        induction l as [|x l IH]; intros [|y m] FA FR LL; try discriminate; [cbn; split; [constructor|ring]|].
        destruct (IH m (Forall_inv_tail FA) (Forall_inv_tail FR) ltac:(now injection LL)) as [I1 I2].
        cbn [combine map fst snd total]. split; [constructor; [|exact I1]|rewrite I2; ring].
        assert (0 <= x) by exact (Forall_inv FA). assert (0 <= y) by exact (Forall_inv FR). nra. }
      destruct M as [M1 M2]. split; [exact M1|]. rewrite M2, TR, TA, TA', <- X, <- X2. ring.
    + cbn [stepok fst snd]. split; [exact HD|]. subst cl. rewrite <- X, Eb. specialize (Z (Forall_nil _)). cbn [rev] in *.
      specialize (Z' (Forall_nil _)). rewrite Z, <- Z'. replace (cd_power_entering d) with (1 - cd_R d) by lra. ring.
  - intros ->. subst cl. rewrite <- X. cbn [rev] in *. specialize (Z' (Forall_nil _)). rewrite Z'. ring.
Qed.
Lemma joints_ok : forall l n, l <> [] -> transparent beta n ->
  Forall (fun s : seg => transparent beta (fst (snd s))) (removelast l) ->
  passive beta (fst (snd (last l ([], (RtoC 0, None))))) ->
  Forall (fun s : seg => Forall (medium_ok pol lam beta) (fst s)) l ->
  Forall jok (joints n l) /\ Forall (fun j => transparent beta (fst (fst j))) (joints n l) /\
  Forall (fun j => transparent beta (snd j)) (removelast (joints n l)).
Proof.
  induction l as [|[cl [n1 d1]] l IH]; intros n Hl Tn Ti Pl Fc; [congruence|].
  cbn [joints fst snd]. destruct l as [|s l].
  - cbn [last snd fst] in Pl. repeat split; try (constructor; [|constructor]).
    + split; [now apply transparent_passive|]. split; [exact Pl|exact (Forall_inv Fc)].
    + exact Tn.
    + constructor.
  - change (removelast ((cl, (n1, d1)) :: s :: l)) with ((cl, (n1, d1)) :: removelast (s :: l)) in Ti.
    assert (T1 : transparent beta n1) by exact (Forall_inv Ti).
    destruct (IH n1 ltac:(discriminate) T1 (Forall_inv_tail Ti) Pl (Forall_inv_tail Fc)) as (I1 & I2 & I3).
    split; [constructor; [|exact I1]|split; [constructor; [exact Tn|exact I2]|]].
    + split; [now apply transparent_passive|]. split; [now apply transparent_passive|exact (Forall_inv Fc)].
    + cbn [joints] in *. change (removelast (?x :: ?y :: ?m)) with (x :: removelast (y :: m)).
      constructor; [exact T1|exact I3].
Qed.
Lemma pass_transparent n d : transparent beta n -> pass_of lam beta ([], (n, Some d)) = 1.
Proof.
  intros T. unfold pass_of. cbn [fst snd].
  destruct (passive_k beta n Hbeta (transparent_passive _ _ T)) as [(_ & _ & K) _]. rewrite (K (proj1 T)).
  replace (- 4 * PI * d * 0 / lam) with 0 by (field; lra). rewrite exp_0. apply raise30_id.
  rewrite <- Rinv_1. apply Rinv_le_contravar; [lra|]. rewrite <- (pow1 30). apply pow_incr. lra.
Qed.
Lemma nth_removelast {A} (l : list A) i d : (S i < length l)%nat -> nth i (removelast l) d = nth i l d.
Proof.
  revert i. induction l as [|x l IH]; intros i H; [cbn in H; lia|]. destruct l as [|y l]; [cbn in H; lia|].
  change (removelast (x :: y :: l)) with (x :: removelast (y :: l)). destruct i; [reflexivity|]. cbn [nth]. apply IH. cbn in *. lia.
Qed.
Lemma Forall_nth_in {A} (P : A -> Prop) l i d : Forall P l -> (i < length l)%nat -> P (nth i l d).
Proof. intros F Hi. rewrite Forall_forall in F. apply F, nth_In, Hi. Qed.
Lemma energy n0 (s0 : C) l : (n0 * s0 = beta)%C -> structure l ->
  transparent beta n0 -> steep beta n0 -> Forall (fun s : seg => steep beta (fst (snd s))) l ->
  Forall (fun s : seg => transparent beta (fst (snd s))) (removelast l) ->
  passive beta (fst (snd (last l ([], (RtoC 0, None))))) ->
  Forall (fun s : seg => Forall (medium_ok pol lam beta) (fst s)) l ->
  Forall not_opaque (joints n0 l) ->
  exists D A, inc_tmm pol (all_n n0 l) (all_d l) (all_c l) s0 lam = Ok D /\
    inc_absorp_in_each_layer D = Ok A /\
    ((exists g, (g_stack_from_inc g = None :: x_sfi 0 l /\ g_stack_from_all g = None :: x_sfa 0 l) /\
      D = IncData (clip_T (run_T pol lam beta n0 l)) (clip_R (run_R pol lam beta n0 l)) (run_VW pol lam beta n0 l)
            (run_coh pol lam beta n0 l) (run_bcoh pol lam beta n0 l) (run_FB pol lam beta n0 l) (run_pe pol lam beta n0 l) g) /\
     Forall (fun fb => 0 <= fst fb /\ 0 <= snd fb) (id_FB D)) /\
    (exists As, A = id_R D :: As ++ [id_T D] /\ Forall2 entry (inner (all_c l)) As) /\
    total A = 1 /\ 0 <= id_R D /\ 0 < id_T D /\
    (Forall (fun s : seg => Forall (fun x => transparent beta (fst x)) (fst s)) l -> id_R D + id_T D = 1).
Proof.
  intros Hs St T0 S0 Sl Ti Pl Fc NO.
  assert (Hl : l <> []) by (destruct St as (inn & clf & nf & -> & _); now destruct inn).
  destruct (joints_ok l n0 Hl T0 Ti Pl Fc) as (J1 & J2 & J3).
  assert (LJ := joints_length l n0).
  assert (Ol : Forall (fun s => ok_inc beta (fst (snd s))) l).
  { clear - St Sl Ti Pl. destruct St as (inn & clf & nf & -> & _). rewrite removelast_last in Ti. rewrite last_last in Pl.
    apply Forall_app in Sl. destruct Sl as [Sl1 Sl2]. apply Forall_app. split.
    - rewrite Forall_forall in *. intros x Hx. split; [apply transparent_passive, Ti, Hx|apply Sl1, Hx].
    - constructor; [split; [exact Pl|exact (Forall_inv Sl2)]|constructor]. }
  destruct (inc_tmm_run pol lam beta Hpol Hbeta n0 s0 l St Hs (conj (transparent_passive _ _ T0) S0) Ol) as (g & [Eg Ega] & E).
  set (D := IncData (clip_T (run_T pol lam beta n0 l)) _ _ _ _ _ _ _) in E.
  assert (EC := run_cs_plain n0 l J1 NO).
  assert (EP : Forall (fun P => P = 1) (run_Ps lam beta l)).
  { unfold run_Ps. apply Forall_map. destruct St as (inn & clf & nf & -> & Fi). rewrite removelast_last in Ti |- *.
    rewrite Forall_forall in *. intros [cl [n d]] Hx. specialize (Ti _ Hx). specialize (Fi _ Hx). cbn [fst snd] in *.
    unfold finite_seg in Fi. cbn [snd] in Fi. destruct d as [d|]; [|congruence]. exact (pass_transparent n d Ti). }
  assert (LP : length (run_Ps lam beta l) = (length l - 1)%nat) by (unfold run_Ps; rewrite map_length; apply removelast_length).
  set (cs := run_cs pol lam beta n0 l) in *. set (Ps := run_Ps lam beta l) in *.
  assert (LC : length cs = length l) by (rewrite EC, map_length; exact LJ).
  (* bounds *)
  assert (PH : Forall phys cs).
  { rewrite EC. apply Forall_map. rewrite Forall_forall in *. intros [[n cl] n'] Hj.
    exact (proj1 (joint_phys n cl n' (J1 _ Hj)) (J2 _ Hj)). }
  assert (PH' : Forall phys' (removelast cs)).
  { rewrite EC. assert (Q : removelast (map (jcpl pol lam beta) (joints n0 l)) = map (jcpl pol lam beta) (removelast (joints n0 l))).
    { generalize (joints n0 l). induction l0 as [|x [|y m] IHm]; [reflexivity|reflexivity|].
      change (removelast (x :: y :: m)) with (x :: removelast (y :: m)). cbn [map] in *.
      change (removelast (?x :: ?y :: ?m)) with (x :: removelast (y :: m)). now rewrite IHm. }
    rewrite Q. apply Forall_map. assert (J1' := removelast_Forall _ _ J1). rewrite Forall_forall in *. intros [[n cl] n'] Hj.
    exact (proj2 (joint_phys n cl n' (J1' _ Hj)) (J3 _ Hj)). }
  destruct cs as [|c0 cr] eqn:Ecs; [destruct l; [congruence|discriminate]|].
  assert (LPr : length Ps = length cr) by (cbn [length] in LC; lia).
  assert (FP : Forall (fun P => 0 < P <= 1) Ps) by (eapply Forall_impl; [|exact EP]; intros P ->; lra).
  assert (PH'' : Forall phys' (removelast cr)) by (destruct cr; [constructor|exact (Forall_inv_tail PH')]).
  assert (ELs : run_Ls pol lam beta n0 l = map (fun pc => inner_matrix (fst pc) (snd pc)) (combine Ps cr)).
  { unfold run_Ls. fold Ps. fold cs. rewrite Ecs. reflexivity. }
  assert (HX : forall T, phys' c0 \/ snd (hd (T, 0) (intensities (run_Ls pol lam beta n0 l) T)) = 0).
  { intros T. destruct cr as [|c1 cr]; [right|left; exact (Forall_inv PH')]. rewrite ELs. destruct Ps; [reflexivity|discriminate]. }
  assert (First : forall T, 0 < T ->
     0 < fst (rapply (first_matrix c0) (hd (T, 0) (intensities (run_Ls pol lam beta n0 l) T))) /\
     0 <= snd (rapply (first_matrix c0) (hd (T, 0) (intensities (run_Ls pol lam beta n0 l) T)))
       <= fst (rapply (first_matrix c0) (hd (T, 0) (intensities (run_Ls pol lam beta n0 l) T)))).
  { intros T HT. assert (IB := intensities_bounds cr Ps T HT (Forall_inv_tail PH) PH'' FP LPr). cbv zeta in IB. rewrite <- ELs in IB.
    specialize (HX T).
    destruct (intensities_cons (run_Ls pol lam beta n0 l) T) as (v & r & Ei). rewrite Ei in *. cbn [hd] in *.
    apply Forall_inv in IB. destruct v as [V W]. cbn [fst snd] in *. apply joint_bounds; [exact (Forall_inv PH)|tauto|tauto|exact HX]. }
  assert (ELt : forall v, rapply (run_Lt pol lam beta n0 l) v = rapply (first_matrix c0) (fold_right rapply v (run_Ls pol lam beta n0 l))).
  { intros v. unfold run_Lt. fold cs. rewrite Ecs. cbn [hd]. apply fold_left_rapply. }
  assert (R0 : 0 < r00 (run_Lt pol lam beta n0 l)).
  { destruct (First 1 Rlt_0_1) as [Q _]. rewrite intensities_hd, <- ELt in Q. unfold rapply in Q. cbn [fst snd] in Q. lra. }
  assert (HT : 0 < run_T pol lam beta n0 l) by (unfold run_T; apply Rdiv_lt_0_compat; [lra|exact R0]).
  set (T := run_T pol lam beta n0 l) in *. set (Rr := run_R pol lam beta n0 l) in *.
  set (VW := run_VW pol lam beta n0 l) in *.
  assert (EF : rapply (first_matrix c0) (hd (T, 0) (intensities (run_Ls pol lam beta n0 l) T)) = (1, Rr)).
  { rewrite intensities_hd, <- ELt. unfold rapply. cbn [fst snd]. unfold T, Rr, run_T, run_R. f_equal; field; lra. }
  assert (HR : 0 <= Rr <= 1) by (destruct (First T HT) as [_ Q]; rewrite EF in Q; exact Q).
  assert (NR : net_radiation 1 Rr (c0 :: cr) Ps VW).
  { unfold VW, run_VW. fold T. rewrite ELs. apply net_solution.
    - eapply Forall_impl; [|exact PH]. intros c (Q & _). lra.
    - eapply Forall_impl; [|exact FP]. intros P Q. lra.
    - exact LPr.
    - rewrite <- ELs. exact EF. }
  assert (LV : length VW = length l).
  { unfold VW, run_VW. rewrite intensities_length, ELs, map_length, combine_length, LPr, Nat.min_id. exact LC. }
  assert (BV : Forall (fun v => 0 < fst v /\ 0 <= snd v <= fst v) VW).
  { unfold VW, run_VW. fold T. rewrite ELs. exact (intensities_bounds cr Ps T HT (Forall_inv_tail PH) PH'' FP LPr). }
  assert (LastV : last VW (0, 0) = (T, 0)) by apply intensities_last.
  assert (NI := net_index _ _ _ _ _ NR EP). rewrite LC in NI.
  (* each joint *)
  assert (Each : forall i, (i < length l)%nat ->
     let v := nth i ((1, Rr) :: VW) (0, 0) in let v' := nth i VW (0, 0) in
     stepok D (nth i (x_sfi 0 l) None) (fst (nth i l ([], (RtoC 0, None)))) v v' /\
     entering VW Ps (c0 :: cr) (run_FB pol lam beta n0 l) (run_coh pol lam beta n0 l) (run_bcoh pol lam beta n0 l)
       (S i, nth i (x_sfi 0 l) None) = fst v' - snd v').
  { intros i Hi v v'.
    destruct (sfi_lookup l n0 1 0 0 i Hi) as ([[n cl] n'] & Ej & Ecl & Es). cbn [fst snd] in Ecl, Es.
    assert (Ejn : nth i (joints n0 l) (RtoC 0, [], RtoC 0) = (n, cl, n')) by (now apply nth_error_nth).
    assert (Hj : jok (n, cl, n')) by (rewrite <- Ejn; apply Forall_nth_in; [exact J1|lia]).
    assert (Hn : transparent beta n).
    { change n with (fst (fst (n, cl, n'))). rewrite <- Ejn. apply (Forall_nth_in (fun j => transparent beta (fst (fst j)))); [exact J2|lia]. }
    assert (Hn' : transparent beta n' \/ snd v' = 0).
    { destruct (Nat.eq_dec (S i) (length l)) as [Q|Q].
      - right. unfold v'. replace (nth i VW (0, 0)) with (last VW (0, 0)); [rewrite LastV; reflexivity|].
        assert (NV : VW <> []) by (intros Z; rewrite Z in LV; cbn in LV; lia).
        destruct (exists_last NV) as (m & z & Em). rewrite Em in *. rewrite last_last. rewrite app_length in LV. cbn in LV.
        replace i with (length m) by lia. symmetry. apply nth_middle.
      - left. change n' with (snd (n, cl, n')). rewrite <- Ejn, <- nth_removelast by lia.
        apply (Forall_nth_in (fun j => transparent beta (snd j))); [exact J3|rewrite removelast_length; lia]. }
    assert (Ec : nth i (c0 :: cr) (Cpl 0 0 0 0) = jcpl pol lam beta (n, cl, n')).
    { rewrite EC. rewrite (nth_indep _ _ (jcpl pol lam beta (RtoC 0, [], RtoC 0))) by (rewrite map_length; lia).
      rewrite map_nth, Ejn. reflexivity. }
    destruct (NI i Hi) as [N1 N2]. fold v v' in N1, N2. rewrite Ec in N1, N2.
    assert (Bv : 0 < fst v).
    { unfold v. destruct i as [|i]; [cbn; lra|]. cbn [nth].
      apply (Forall_nth_in (fun v => 0 < fst v /\ 0 <= snd v <= fst v)); [exact BV|lia]. }
    assert (Bv' : 0 <= snd v').
    { unfold v'. destruct (Forall_nth_in (fun v => 0 < fst v /\ 0 <= snd v <= fst v) VW i (0, 0) BV ltac:(lia)) as (_ & Q & _). exact Q. }
    assert (EFB : stack_FB VW Ps i = (fst v, snd v')).
    { unfold stack_FB. replace (i + 1 - 1)%nat with i by lia. fold v'. f_equal.
      destruct i as [|i]; [reflexivity|]. cbn [Nat.eqb]. unfold v. cbn [nth]. replace (S i - 1)%nat with i by lia.
      rewrite (Forall_nth_in (fun P => P = 1) Ps i 0 EP ltac:(lia)). ring. }
    assert (JS := joint_step D (nth i (x_sfi 0 l) None) n cl n' (fst v) (snd v) (fst v') (snd v') Hj Hn Hn' Bv Bv' N1 N2).
    rewrite <- !surjective_pairing in JS. rewrite <- Ecl.
    destruct (nth i (x_sfi 0 l) None) as [j|] eqn:En.
    - destruct Es as (j' & kk & -> & Q1 & Q2). cbn [Nat.add] in *.
      assert (K1 : nth j' (run_coh pol lam beta n0 l) no_data = dat pol lam beta (n, cl, n')).
      { apply nth_error_nth. unfold run_coh. rewrite !nth_error_map, Q2. reflexivity. }
      assert (K2 : nth j' (run_bcoh pol lam beta n0 l) no_data = bdat pol lam beta (n, cl, n')).
      { apply nth_error_nth. unfold run_bcoh. rewrite !nth_error_map, Q2. reflexivity. }
      assert (K3 : nth j' (run_FB pol lam beta n0 l) (0, 0) = (fst v, snd v')).
      { apply nth_error_nth. unfold run_FB. rewrite nth_error_map, Q1. cbn [option_map]. f_equal. exact EFB. }
      destruct (JS (conj K1 (conj K2 K3))) as (JS1 & _ & JS2).
      split; [exact JS1|]. cbn [entering]. rewrite K1, K2, K3. exact JS2.
    - destruct (JS Es) as (JS1 & JS2 & _). split; [exact JS1|].
      cbn [entering]. replace (S i - 1)%nat with i by lia. rewrite Ec, <- (JS2 eq_refl). fold v'.
      destruct i as [|i]; [cbn [Nat.eqb Nat.sub]; unfold v, v'; cbn [nth fst]; ring|].
      cbn [Nat.eqb]. unfold v. cbn [nth]. replace (S i - 1)%nat with i by lia.
      rewrite (Forall_nth_in (fun P => P = 1) Ps i 0 EP ltac:(lia)). ring. }
  assert (EPE : id_pe D = 1 :: map (fun v => fst v - snd v) VW).
  { unfold D. cbn [id_pe]. unfold run_pe. fold VW Ps. fold cs. rewrite Ecs. f_equal.
    apply (nth_ext _ _ 0 0).
    - rewrite !map_length, combine_length, seq_length, sfi_length, Nat.min_id. now rewrite LV.
    - intros i Hi. rewrite map_length, combine_length, seq_length, sfi_length, Nat.min_id in Hi.
      rewrite (nth_indep _ 0 (entering VW Ps (c0 :: cr) (run_FB pol lam beta n0 l) (run_coh pol lam beta n0 l)
                 (run_bcoh pol lam beta n0 l) (0%nat, None)))
        by (rewrite map_length, combine_length, seq_length, sfi_length, Nat.min_id; exact Hi).
      rewrite map_nth, combine_nth by (rewrite seq_length, sfi_length; reflexivity).
      rewrite seq_nth by exact Hi. change (1 + i)%nat with (S i). rewrite (proj2 (Each i Hi)).
      rewrite (nth_indep _ 0 ((fun v : R * R => fst v - snd v) (0, 0))) by (rewrite map_length; lia).
      rewrite (map_nth (fun v : R * R => fst v - snd v)). reflexivity. }
  assert (Steps : steps D (1, Rr) l (x_sfi 0 l) VW).
  { apply steps_of_index; [apply sfi_length|exact LV|]. intros i Hi. exact (proj1 (Each i Hi)). }
  destruct (loop_entries D l (x_sfi 0 l) VW (1, Rr) 1 Hl Steps) as (As & EA & FA & TA).
  rewrite LastV in TA. cbn [fst snd] in EA, TA. replace (1 - (1 - Rr)) with Rr in EA by ring.
  assert (ER : id_R D = Rr).
  { unfold D. cbn [id_R]. fold Rr. unfold clip_R. destruct (Rlt_dec 1 Rr); [exfalso; lra|reflexivity]. }
  assert (ET : id_T D = T).
  { unfold D. cbn [id_T]. fold T. unfold clip_T. destruct (Rlt_dec T 0); [exfalso; lra|reflexivity]. }
  exists D, (id_R D :: As ++ [id_T D]).
  split; [exact E|].
  assert (NA : Forall (fun x => 0 <= x) As).
  { clear - FA. induction FA as [|c x lc lx H _ IHF]; constructor; [apply H|exact IHF]. }
  split.
  { unfold inc_absorp_in_each_layer. rewrite EPE. unfold D at 2. cbn [id_group]. rewrite Eg. cbn [tl]. rewrite EA. cbn [bindR].
    f_equal. cbn [app]. rewrite ER. apply clamp_id. constructor; [lra|]. apply Forall_app. split; [exact NA|].
    constructor; [rewrite ET; lra|constructor]. }
  split.
  { split; [exists g; split; [split; assumption|reflexivity]|]. unfold D. cbn [id_FB]. unfold run_FB. apply Forall_map.
    fold VW Ps. apply Forall_forall. intros i _. unfold stack_FB. cbn [fst snd].
    assert (NV : forall k, 0 <= fst (nth k VW (0, 0)) /\ 0 <= snd (nth k VW (0, 0))).
    { intros k. destruct (lt_dec k (length VW)) as [K|K].
      - destruct (Forall_nth_in (fun v => 0 < fst v /\ 0 <= snd v <= fst v) VW k (0, 0) BV K) as (Q1 & Q2 & _). lra.
      - rewrite nth_overflow by lia. cbn. lra. }
    assert (NP : forall k, 0 <= nth k Ps 0).
    { intros k. destruct (lt_dec k (length Ps)) as [K|K].
      - rewrite (Forall_nth_in (fun P => P = 1) Ps k 0 EP K). lra.
      - rewrite nth_overflow by lia. lra. }
    split; [|apply NV]. destruct (i =? 0)%nat; [lra|]. apply Rmult_le_pos; [apply NV|apply NP]. }
  split; [exists As; split; [reflexivity|]; exact FA|].
  split; [cbn [total]; rewrite total_app; cbn [total]; rewrite TA, ER, ET; ring|].
  rewrite ER, ET. split; [lra|]. split; [exact HT|]. intros FT.
  assert (Same : forall i, (i <= length l)%nat -> fst (nth i ((1, Rr) :: VW) (0, 0)) - snd (nth i ((1, Rr) :: VW) (0, 0)) = 1 - Rr).
  { induction i as [|i IHi]; intros Hi; [reflexivity|]. rewrite <- (IHi ltac:(lia)).
    change (nth (S i) ((1, Rr) :: VW) (0, 0)) with (nth i VW (0, 0)).
    specialize (NI i Hi). cbv zeta in NI. destruct NI as [N1 N2].
    destruct (sfi_lookup l n0 1 0 0 i Hi) as ([[n cl] n'] & Ej & Ecl & _). cbn [fst snd] in Ecl.
    assert (Ejn : nth i (joints n0 l) (RtoC 0, [], RtoC 0) = (n, cl, n')) by (now apply nth_error_nth).
    assert (Hj : jok (n, cl, n')) by (rewrite <- Ejn; apply Forall_nth_in; [exact J1|lia]).
    assert (Hn : transparent beta n).
    { change n with (fst (fst (n, cl, n'))). rewrite <- Ejn. apply (Forall_nth_in (fun j => transparent beta (fst (fst j)))); [exact J2|lia]. }
    assert (Ec : nth i (c0 :: cr) (Cpl 0 0 0 0) = jcpl pol lam beta (n, cl, n')).
    { rewrite EC. rewrite (nth_indep _ _ (jcpl pol lam beta (RtoC 0, [], RtoC 0))) by (rewrite map_length; lia).
      rewrite map_nth, Ejn. reflexivity. }
    rewrite Ec in N1, N2.
    assert (Fcl : Forall (fun x => transparent beta (fst x)) cl).
    { rewrite Ecl. apply (Forall_nth_in (fun s : seg => Forall (fun x => transparent beta (fst x)) (fst s))); assumption. }
    destruct Hj as (P & P' & F).
    destruct (half pol lam beta Hpol Hlam Hbeta n cl n' P P' F) as (A1 & _ & _ & _ & _ & _ & _ & S1 & Z1).
    destruct (half pol lam beta Hpol Hlam Hbeta n' (rev cl) n P' P (medium_rev _ F)) as (A2 & _ & _ & _ & _ & _ & _ & S2 & Z2).
    specialize (S1 Hn). specialize (Z1 Fcl). specialize (Z2 (Forall_rev Fcl)).
    unfold jcpl, couple_stack in N1, N2. cbn [c_R c_T c_R' c_T'] in N1, N2. unfold dat, bdat in N1, N2.
    rewrite Z1 in N1. rewrite Z2 in N2.
    destruct (Nat.eq_dec (S i) (length l)) as [Q|Q].
    - assert (W0 : snd (nth i VW (0, 0)) = 0).
      { replace (nth i VW (0, 0)) with (last VW (0, 0)); [rewrite LastV; reflexivity|].
        assert (NV : VW <> []) by (intros Y; rewrite Y in LV; cbn in LV; lia).
        destruct (exists_last NV) as (m & z & Em). rewrite Em in *. rewrite last_last. rewrite app_length in LV. cbn in LV.
        replace i with (length m) by lia. symmetry. apply nth_middle. }
      rewrite W0 in N1, N2 |- *.
      replace (cd_R (out pol lam beta n (cos_in beta n) cl n')) with (1 - cd_power_entering (out pol lam beta n (cos_in beta n) cl n')) in N2 by lra. lra.
    - assert (Hn' : transparent beta n').
      { change n' with (snd (n, cl, n')). rewrite <- Ejn, <- nth_removelast by lia.
        apply (Forall_nth_in (fun j => transparent beta (snd j))); [exact J3|rewrite removelast_length; lia]. }
      specialize (S2 Hn').
      replace (cd_R (out pol lam beta n (cos_in beta n) cl n')) with (1 - cd_power_entering (out pol lam beta n (cos_in beta n) cl n')) in N2 by lra.
      replace (cd_R (out pol lam beta n' (cos_in beta n') (rev cl) n)) with (1 - cd_power_entering (out pol lam beta n' (cos_in beta n') (rev cl) n)) in N1 by lra. lra. }
  specialize (Same (length l) (Nat.le_refl _)).
  assert (NV : VW <> []) by (intros Y; rewrite Y in LV; destruct l; [congruence|discriminate]).
  destruct (exists_last NV) as (m & z & Em). rewrite Em in LastV, LV, Same. rewrite last_last in LastV. subst z.
  rewrite app_length in LV. cbn [length] in LV.
  replace (length l) with (S (length m)) in Same by lia. cbn [nth] in Same. rewrite nth_middle in Same. cbn [fst snd] in Same. lra.
Qed.
End Whole.

(** * C84: energy *)
Lemma sin_cos_pol_beta (n0 th : R) : (RtoC n0 * RtoC (sin th) = RtoC (n0 * sin th))%C.
Proof. now rewrite RtoC_mult. Qed.
(** Light from a transparent medium on a structure whose inner incoherent layers do not absorb
    (the coherent ones may, and so may the medium behind): the method succeeds, every layer is
    assigned a share of the incident light, none negative, the incoherent layers none at all,
    and the shares together with reflectance and transmittance are the whole incident light;
    if the coherent layers do not absorb either, reflectance and transmittance alone are. *)
Theorem C84_energy_partial : forall pol (n0 th lam : R) l,
  valid_pol pol -> 0 < lam -> 0 < n0 -> 0 <= th < PI / 2 ->
  let beta := n0 * sin th in
  structure l -> steep beta n0 -> Forall (fun s : seg => steep beta (fst (snd s))) l ->
  Forall (fun s : seg => transparent beta (fst (snd s))) (removelast l) ->
  passive beta (fst (snd (last l ([], (RtoC 0, None))))) ->
  Forall (fun s : seg => Forall (medium_ok pol lam beta) (fst s)) l ->
  Forall (not_opaque pol lam beta) (joints n0 l) ->
  exists D A, inc_tmm pol (all_n n0 l) (all_d l) (all_c l) (sin th) lam = Ok D /\
    inc_absorp_in_each_layer D = Ok A /\
    (exists As, A = id_R D :: As ++ [id_T D] /\ Forall2 entry (inner (all_c l)) As) /\
    total A = 1 /\ 0 <= id_R D < 1 /\ 0 < id_T D <= 1 /\
    (Forall (fun s : seg => Forall (fun x => transparent beta (fst x)) (fst s)) l -> id_R D + id_T D = 1).
Proof.
  intros pol n0 th lam l Hpol Hlam Hn0 Hth beta St S0 Sl Ti Pl Fc NO.
  assert (Hsin : 0 <= sin th) by (apply sin_ge_0; lra).
  assert (Hb : 0 <= beta) by (unfold beta; nra).
  assert (Hs1 : sin th < 1).
  { rewrite <- sin_PI2. apply sin_increasing_1; lra. }
  assert (T0 : transparent beta n0).
  { unfold transparent, beta. cbn [RtoC Re Im fst snd]. split; [reflexivity|]. split; [exact Hn0|]. nra. }
  destruct (energy pol lam beta Hpol Hlam Hb n0 (sin th) l (sin_cos_pol_beta n0 th) St T0 S0 Sl Ti Pl Fc NO)
    as (D & A & E1 & E2 & _ & (As & EA & FA) & TA & R0 & HT & Z).
  exists D, A. split; [exact E1|]. split; [exact E2|]. split; [now exists As|]. split; [exact TA|].
  assert (NA : 0 <= total As).
  { clear - FA. induction FA as [|c x lc lx H _ IHF]; cbn; [lra|]. destruct H. lra. }
  rewrite EA in TA. cbn [total] in TA. rewrite total_app in TA. cbn [total] in TA.
  split; [lra|]. split; [lra|exact Z].
Qed.

(** * C84: net radiation *)
(** The couplings of a joint are those [coh_tmm] finds for the coherent layers in it, seen
    from either side (for a bare interface, those of a stack without layers). *)
Definition coupled (pol : string) (lam beta : R) (j : joint) (c : cpl) : Prop :=
  let '(n, cl, n') := j in
  (exists d, coh_tmm pol (stack_n n cl n') (stack_d cl) (sin_in beta n) (cos_in beta n) lam = Ok d /\
     c_R c = cd_R d /\ c_T c = cd_T d) /\
  (exists d, coh_tmm_reverse pol (stack_n n cl n') (stack_d cl) (sin_in beta n) (cos_in beta n) lam = Ok d /\
     c_R' c = cd_R d /\ c_T' c = cd_T d).
(** The fraction of the light left after one pass through an incoherent layer. *)
Definition passed (lam beta : R) (s : seg) (P : R) : Prop :=
  exists d, snd (snd s) = Some d /\
    P = exp (- 4 * PI * d * Im (fst (snd s) * cos_in beta (fst (snd s)))%C / lam).
(** The incoherent layers let through more than 1e-30 in one pass. *)
Definition not_dark (lam beta : R) (s : seg) : Prop := forall P, passed lam beta s P -> / 10 ^ 30 <= P.
(** For any passive structure, absorbing incoherent layers included: if neither reflectance nor
    transmittance had to be clipped, the intensities found solve the net radiation equations of
    the structure for unit incident light. *)
Theorem C84_net_radiation : forall pol (n0 : C) (s0 : C) (beta lam : R) l,
  valid_pol pol -> 0 < lam -> 0 <= beta -> (n0 * s0 = beta)%C ->
  structure l -> ok_inc beta n0 -> Forall (fun s : seg => ok_inc beta (fst (snd s))) l ->
  Forall (fun s : seg => Forall (medium_ok pol lam beta) (fst s)) l ->
  Forall (not_opaque pol lam beta) (joints n0 l) -> Forall (not_dark lam beta) (removelast l) ->
  exists D cs Ps, inc_tmm pol (all_n n0 l) (all_d l) (all_c l) s0 lam = Ok D /\
    Forall2 (coupled pol lam beta) (joints n0 l) cs /\ Forall2 (passed lam beta) (removelast l) Ps /\
    (0 < id_T D -> id_R D < 1 ->
       net_radiation 1 (id_R D) cs Ps (id_VW D) /\ last (id_VW D) (0, 0) = (id_T D, 0)).
Proof.
  intros pol n0 s0 beta lam l Hpol Hlam Hb Hs St Hn Hl Fc NO ND.
  destruct (inc_tmm_run pol lam beta Hpol Hb n0 s0 l St Hs Hn Hl) as (g & [Eg _] & E).
  assert (HJ : Forall (jok pol lam beta) (joints n0 l)).
  { clear - Hn Hl Fc. revert n0 Hn. induction l as [|[cl [n1 d1]] l IH]; intros n0 Hn; [constructor|].
    cbn [joints fst snd]. constructor.
    - split; [apply Hn|]. split; [exact (proj1 (Forall_inv Hl))|exact (Forall_inv Fc)].
    - apply IH; [exact (Forall_inv_tail Hl)|exact (Forall_inv_tail Fc)|exact (Forall_inv Hl)]. }
  assert (EC := run_cs_plain pol lam beta Hpol n0 l HJ NO).
  eexists. exists (run_cs pol lam beta n0 l), (run_Ps lam beta l). split; [exact E|]. cbn [id_T id_R id_VW].
  assert (HT : Forall (fun c => 0 < c_T c) (run_cs pol lam beta n0 l)).
  { rewrite EC. apply Forall_map. rewrite Forall_forall in *. intros [[n cl] n'] Hj. specialize (HJ _ Hj). destruct HJ as (P & P' & F).
    destruct (half pol lam beta Hpol Hlam Hb n cl n' P P' F) as (A & _ & _ & _ & _ & T & _).
    unfold jcpl, couple_stack, dat. cbn [c_T]. lra. }
  split; [|split].
  - rewrite EC. clear - HJ Hpol. induction HJ as [|[[n cl] n'] js H HJ IH]; [constructor|]. cbn [map]. constructor; [|exact IH].
    destruct H as (P & P' & F). assert (N := passive_nonzero beta n P). assert (N' := passive_nonzero beta n' P').
    split; [exists (dat pol lam beta (n, cl, n')); split; [now apply dat_call|split; reflexivity]|].
    exists (bdat pol lam beta (n, cl, n')); split; [now apply bdat_call|split; reflexivity].
  - unfold run_Ps. destruct St as (inn & clf & nf & -> & Fi). rewrite removelast_last in ND |- *.
    clear - ND Fi. induction Fi as [|s inn H Fi IH]; [constructor|]. cbn [map]. constructor; [|apply IH; exact (Forall_inv_tail ND)].
    unfold finite_seg in H. unfold pass_of, passed. destruct s as [cl [n [d|]]]; cbn [fst snd] in *; [|congruence].
    exists d. split; [reflexivity|]. apply raise30_id. apply (Forall_inv ND). exists d. split; reflexivity.
  - intros H1 H2.
    assert (EF : rapply (run_Lt pol lam beta n0 l) (run_T pol lam beta n0 l, 0) = (1, run_R pol lam beta n0 l)).
    { assert (Q : r00 (run_Lt pol lam beta n0 l) <> 0).
      { intros Q. unfold run_T, clip_T in H1. rewrite Q in H1. destruct (Rlt_dec (1 / 0) 0); [lra|].
        unfold Rdiv in *. rewrite Rmult_1_l in *. rewrite Rinv_0 in H1. lra. }
      unfold rapply, run_T, run_R. cbn [fst snd]. f_equal; field; exact Q. }
    assert (ET : clip_T (run_T pol lam beta n0 l) = run_T pol lam beta n0 l).
    { unfold clip_T in *. destruct (Rlt_dec _ 0); [lra|reflexivity]. }
    assert (ER : clip_R (run_R pol lam beta n0 l) = run_R pol lam beta n0 l).
    { unfold clip_R in *. destruct (Rlt_dec 1 _); [lra|reflexivity]. }
    rewrite ET, ER.
    assert (Hl0 : l <> []) by (destruct St as (inn & clf & nf & -> & _); now destruct inn).
    assert (LC : length (run_cs pol lam beta n0 l) = length l) by (rewrite EC, map_length; apply joints_length).
    assert (LP : length (run_Ps lam beta l) = (length l - 1)%nat) by (unfold run_Ps; rewrite map_length; apply removelast_length).
    split; [|apply intensities_last].
    unfold run_VW. unfold run_Lt, run_Ls in *. clear EC.
    destruct (run_cs pol lam beta n0 l) as [|c0 cr]; [destruct l; [congruence|discriminate]|].
    cbn [tl hd] in *. apply net_solution.
    + eapply Forall_impl; [|exact HT]. intros c Q. cbn in Q. lra.
    + unfold run_Ps. apply Forall_map. apply Forall_forall. intros s Hs'.
      destruct St as (inn & clf & nf & -> & Fi). rewrite removelast_last in Hs'. rewrite Forall_forall in Fi. specialize (Fi _ Hs').
      unfold finite_seg in Fi. unfold pass_of. destruct (snd (snd s)) as [d|]; [|congruence].
      unfold raise30. destruct (Rlt_dec _ _) as [Q|Q]; [assert (Z := tiny_pos); lra|]. assert (Z := tiny_pos). lra.
    + cbn [length] in LC. lia.
    + rewrite intensities_hd, <- fold_left_rapply. exact EF.
Qed.

(** * C84: one incoherent slab *)
(** The textbook sum over the passes through a slab. *)
Theorem C84_slab : forall pol (n0 s0 n1 nf : C) (beta lam d : R),
  valid_pol pol -> 0 < lam -> 0 <= beta -> (n0 * s0 = beta)%C ->
  ok_inc beta n0 -> ok_inc beta n1 -> ok_inc beta nf ->
  not_opaque pol lam beta (n0, [], n1) -> not_opaque pol lam beta (n1, [], nf) ->
  not_dark lam beta ([], (n1, Some d)) ->
  exists D front back,
    inc_tmm pol [n0; n1; nf] [None; Some d; None] ["i"; "i"; "i"]%string s0 lam = Ok D /\
    coupled pol lam beta (n0, [], n1) front /\ coupled pol lam beta (n1, [], nf) back /\
    let P := exp (- 4 * PI * d * Im (n1 * cos_in beta n1)%C / lam) in
    let q := 1 - c_R' front * c_R back * P ^ 2 in
    (0 < q -> id_T D = c_T front * c_T back * P / q /\
              id_R D = Rmin 1 (c_R front + c_T front * c_T' front * c_R back * P ^ 2 / q)).
Proof.
  intros pol n0 s0 n1 nf beta lam d Hpol Hlam Hb Hs H0 H1 Hf O1 O2 ND.
  set (l := [([], (n1, Some d)); ([], (nf, None))] : list seg).
  assert (St : structure l).
  { exists [([], (n1, Some d))], [], nf. split; [reflexivity|]. constructor; [discriminate|constructor]. }
  assert (Hl : Forall (fun s : seg => ok_inc beta (fst (snd s))) l) by (repeat (constructor; [assumption|]); constructor).
  destruct (inc_tmm_run pol lam beta Hpol Hb n0 s0 l St Hs H0 Hl) as (g & _ & E).
  assert (J1 : jok pol lam beta (n0, [], n1)) by (split; [apply H0|split; [apply H1|constructor]]).
  assert (J2 : jok pol lam beta (n1, [], nf)) by (split; [apply H1|split; [apply Hf|constructor]]).
  assert (EC : run_cs pol lam beta n0 l = [jcpl pol lam beta (n0, [], n1); jcpl pol lam beta (n1, [], nf)]).
  { apply (run_cs_plain pol lam beta Hpol); repeat (constructor; [assumption|]); constructor. }
  set (P := exp (- 4 * PI * d * Im (n1 * cos_in beta n1)%C / lam)).
  assert (EP : run_Ps lam beta l = [P]).
  { unfold run_Ps, l. cbn [removelast map pass_of fst snd]. fold P. f_equal. apply raise30_id, ND. exists d. split; reflexivity. }
  assert (Cp : forall j, jok pol lam beta j -> coupled pol lam beta j (jcpl pol lam beta j)).
  { intros [[n cl] n'] (Pn & Pn' & F). assert (N := passive_nonzero beta n Pn). assert (N' := passive_nonzero beta n' Pn').
    split; [exists (dat pol lam beta (n, cl, n')); split; [now apply dat_call|split; reflexivity]|].
    exists (bdat pol lam beta (n, cl, n')); split; [now apply bdat_call|split; reflexivity]. }
  assert (HT : forall j, jok pol lam beta j -> 0 < c_T (jcpl pol lam beta j)).
  { intros [[n cl] n'] (Pn & Pn' & F). destruct (half pol lam beta Hpol Hlam Hb n cl n' Pn Pn' F) as (A & _ & _ & _ & _ & T & _).
    unfold jcpl, couple_stack, dat. cbn [c_T]. lra. }
  eexists. exists (jcpl pol lam beta (n0, [], n1)), (jcpl pol lam beta (n1, [], nf)).
  split; [exact E|]. split; [now apply Cp|]. split; [now apply Cp|]. cbv zeta. cbn [id_T id_R]. fold P.
  unfold run_T, run_R, run_Lt, run_Ls. rewrite EC, EP.
  assert (T1 := HT _ J1). assert (T2 := HT _ J2).
  set (c := jcpl pol lam beta (n0, [], n1)) in *. set (c' := jcpl pol lam beta (n1, [], nf)) in *. clearbody c c'.
  assert (PP : 0 < P) by apply exp_pos. clearbody P.
  cbn [hd tl combine map fold_left fst snd]. unfold first_matrix, inner_matrix, rdiv, rmul, bracket. cbn [r00 r01 r10 r11].
  intros Hq. set (q := 1 - c_R' c * c_R c' * P ^ 2) in *.
  match goal with |- clip_T (1 / ?x) = _ /\ clip_R (?y / _) = _ =>
    replace x with (q / (c_T c * c_T c' * P)) by (unfold q; field; repeat split; lra);
    replace y with ((c_R c * q + c_T c * c_T' c * c_R c' * P ^ 2) / (c_T c * c_T c' * P)) by (unfold q; field; repeat split; lra)
  end.
  assert (K : 0 < c_T c * c_T c' * P) by (apply Rmult_lt_0_compat; [apply Rmult_lt_0_compat|]; assumption).
  split.
  - replace (1 / (q / (c_T c * c_T c' * P))) with (c_T c * c_T c' * P / q) by (field; repeat split; lra).
    unfold clip_T. destruct (Rlt_dec _ 0) as [Q|Q]; [|reflexivity].
    assert (Z : 0 < c_T c * c_T c' * P / q) by (apply Rdiv_lt_0_compat; assumption). lra.
  - match goal with |- clip_R ?x = Rmin 1 ?y => replace x with y by (field; repeat split; lra) end.
    unfold clip_R. destruct (Rlt_dec 1 _) as [Q|Q]; [rewrite Rmin_left; lra|rewrite Rmin_right; lra].
Qed.

(** * Normal incidence *)
Lemma cos_in_normal n : passive 0 n -> cos_in 0 n = RtoC 1.
Proof.
  intros P. destruct (passive_k 0 n (Rle_refl 0) P) as [(K1 & K2 & _) K].
  assert (N := passive_nonzero 0 n P). destruct P as (P1 & P2 & _).
  assert (Q : (n * cos_in 0 n = n)%C).
  { set (k := (n * cos_in 0 n)%C) in *. clearbody k.
    assert (Z : ((k - n) * (k + n) = 0)%C) by (replace ((k - n) * (k + n))%C with (k * k - n * n)%C by ring; rewrite K; ring).
    destruct (Ceq_dec (k - n)%C (RtoC 0)) as [Y|Y].
    - replace k with (k - n + n)%C by ring. rewrite Y. ring.
    - exfalso. assert (X : (k + n)%C <> RtoC 0).
      { intros W. apply (f_equal Re) in W. cbn in W. unfold Re in *. lra. }
      exact (Cmult_neq_0 _ _ Y X Z). }
  replace (cos_in 0 n) with (n * cos_in 0 n / n)%C by (field; exact N). rewrite Q. field. exact N.
Qed.
Lemma steep_normal n : passive 0 n -> steep 0 n.
Proof.
  intros P. unfold steep. rewrite cos_in_normal by exact P.
  assert (E : sin_in 0 n = RtoC 0) by (unfold sin_in, Cdiv; apply Cmult_0_l). rewrite E. cbn. lra.
Qed.
(** The couplings of a bare interface at normal incidence. *)
Lemma normal_R n n' c : passive 0 n -> passive 0 n' -> 
  coupled "s" 1000 0 (n, [], n') c ->
  c_R c = Cmod ((n - n') / (n + n'))%C ^ 2 /\ c_T c = Cmod (2 * n / (n + n'))%C ^ 2 * (Re n' / Re n) /\
  c_R' c = Cmod ((n' - n) / (n' + n))%C ^ 2 /\ c_T' c = Cmod (2 * n' / (n' + n))%C ^ 2 * (Re n / Re n').
Proof.
  intros P P' ((d & E & R1 & T1) & (b & E' & R2 & T2)).
  assert (Hs : valid_pol "s"%string) by now left.
  rewrite (dat_call "s" 1000 0 Hs n [] n' (passive_nonzero 0 n P)) in E.
  rewrite (bdat_call "s" 1000 0 Hs n [] n' (passive_nonzero 0 n P) (passive_nonzero 0 n' P')) in E'.
  assert (Ed : d = dat "s" 1000 0 (n, [], n')) by congruence. assert (Eb : b = bdat "s" 1000 0 (n, [], n')) by congruence.
  rewrite R1, T1, R2, T2, Ed, Eb. unfold dat, bdat, out. cbn [cd_R cd_T rev]. clear - P P' Hs.
  destruct (bare "s" 1000 0 Hs (Rle_refl 0) n n' P P') as [B1 B2].
  destruct (bare "s" 1000 0 Hs (Rle_refl 0) n' n P' P) as [B3 B4]. rewrite B1, B2, B3, B4.
  unfold R_from_r, rq, tq, Tv, den, fa, fb, med. cbn [String.eqb Ascii.eqb Bool.eqb fst snd].
  rewrite !cos_in_normal by assumption. rewrite !Cmult_1_r, !Cmult_1_l, !Cmod_mult.
  repeat split; ring.
Qed.
(** A 1 nm layer of index 1 + 2i in vacuum, treated as incoherent, at 1000 nm: it transmits
    more than all of the incident light and reflects all of it as well. *)
Theorem C84_absorbing_refuted : exists D,
  inc_tmm "s" [RtoC 1; (1, 2); RtoC 1] [None; Some 1; None] ["i"; "i"; "i"]%string 0 1000 = Ok D /\
  passive 0 (1, 2) /\ 1 < id_T D /\ id_R D = 1.
Proof.
  assert (P1 : passive 0 1) by (unfold passive; cbn; lra).
  assert (P2 : passive 0 (1, 2)) by (unfold passive; cbn; lra).
  assert (O1 : forall n n', passive 0 n -> passive 0 n' ->
    / 10 ^ 30 <= Cmod (2 * n / (n + n'))%C ^ 2 * (Re n' / Re n) ->
    / 10 ^ 30 <= Cmod (2 * n' / (n' + n))%C ^ 2 * (Re n / Re n') -> not_opaque "s" 1000 0 (n, [], n')).
  { intros n n' Pn Pn' K1 K2 d [E|E].
    - assert (C0 : coupled "s" 1000 0 (n, [], n') (Cpl (cd_R d) (cd_T d) (cd_R (bdat "s" 1000 0 (n, [], n'))) (cd_T (bdat "s" 1000 0 (n, [], n'))))).
      { split; [now exists d|]. exists (bdat "s" 1000 0 (n, [], n')). split; [|split; reflexivity].
        apply bdat_call; [now left|now apply (passive_nonzero 0)|now apply (passive_nonzero 0)]. }
      destruct (normal_R _ _ _ Pn Pn' C0) as (_ & Q & _). cbn [c_T] in Q. rewrite Q. exact K1.
    - assert (C0 : coupled "s" 1000 0 (n, [], n') (Cpl (cd_R (dat "s" 1000 0 (n, [], n'))) (cd_T (dat "s" 1000 0 (n, [], n'))) (cd_R d) (cd_T d))).
      { split; [|now exists d]. exists (dat "s" 1000 0 (n, [], n')). split; [|split; reflexivity].
        apply dat_call; [now left|now apply (passive_nonzero 0)]. }
      destruct (normal_R _ _ _ Pn Pn' C0) as (_ & _ & _ & Q). cbn [c_T'] in Q. rewrite Q. exact K2. }
  assert (M1 : Cmod (2 * 1 / (1 + (1, 2)))%C ^ 2 = 1 / 2).
  { rewrite Cmod2. cbn. field. }
  assert (M2 : Cmod (2 * (1, 2) / ((1, 2) + 1))%C ^ 2 = 5 / 2).
  { rewrite Cmod2. cbn. field. }
  assert (M3 : Cmod ((1 - (1, 2)) / (1 + (1, 2)))%C ^ 2 = 1 / 2).
  { rewrite Cmod2. cbn. field. }
  assert (M4 : Cmod (((1, 2) - 1) / ((1, 2) + 1))%C ^ 2 = 1 / 2).
  { rewrite Cmod2. cbn. field. }
  assert (Tiny : / 10 ^ 30 <= 1 / 2).
  { unfold Rdiv. rewrite Rmult_1_l. apply Rinv_le_contravar; [lra|]. apply Rle_trans with (10 ^ 1); [lra|]. apply Rle_pow; [lra|lia]. }
  set (P := exp (- 4 * PI * 1 * Im ((1, 2) * cos_in 0 (1, 2))%C / 1000)).
  assert (HP : 9 / 10 <= P <= 1).
  { unfold P. rewrite cos_in_normal by exact P2. rewrite Cmult_1_r. cbn [Im snd].
    assert (HPI := PI_4). assert (HPI' := PI_RGT_0). split.
    - apply Rle_trans with (1 + - 4 * PI * 1 * 2 / 1000); [lra|].
      destruct (Req_dec (- 4 * PI * 1 * 2 / 1000) 0) as [Q|Q]; [rewrite Q, exp_0; lra|]. left. apply exp_ineq1. exact Q.
    - assert (Q : exp (- 4 * PI * 1 * 2 / 1000) < exp 0) by (apply exp_increasing; lra). rewrite exp_0 in Q. lra. }
  destruct (C84_slab "s" 1 0 (1, 2) 1 0 1000 1) as (D & f & b & E & Cf & Cb & H).
  - now left.
  - lra.
  - lra.
  - ring.
  - split; [exact P1|now apply steep_normal].
  - split; [exact P2|now apply steep_normal].
  - split; [exact P1|now apply steep_normal].
  - apply O1; [exact P1|exact P2|rewrite M1; cbn; lra|rewrite M2; cbn; lra].
  - apply O1; [exact P2|exact P1|rewrite M2; cbn; lra|rewrite M1; cbn; lra].
  - intros p (d & Ed & ->). cbn [fst snd] in *. injection Ed as <-. fold P. lra.
  - exists D. split; [exact E|]. split; [exact P2|].
    destruct (normal_R _ _ _ P1 P2 Cf) as (F1 & F2 & F3 & F4). destruct (normal_R _ _ _ P2 P1 Cb) as (B1 & B2 & B3 & B4).
    rewrite M1, M2, M3, M4 in *. cbn [Re fst RtoC] in *. cbv zeta in H. fold P in H.
    rewrite F1, F2, F3, F4, B1, B2 in H. clearbody P.
    destruct H as [HT HR]; [nra|]. rewrite HT, HR.
    assert (Hq : 0 < 1 - 1 / 2 * (1 / 2) * P ^ 2 <= 1) by nra.
    set (q := 1 - 1 / 2 * (1 / 2) * P ^ 2) in *. split.
    + apply Rmult_lt_reg_r with q; [lra|]. unfold Rdiv. rewrite (Rmult_assoc _ (/ q)), Rinv_l by lra. unfold q. nra.
    + apply Rmin_left. enough (1 / 2 <= 1 / 2 * (1 / 1) * (5 / 2 * (1 / 1)) * (1 / 2) * P ^ 2 / q) by (unfold q in *; lra).
      apply Rmult_le_reg_r with q; [lra|]. unfold Rdiv. rewrite (Rmult_assoc _ (/ q)), Rinv_l by lra. unfold q. nra.
Qed.

(** * C84: grazing light *)
(** An interface between incoherent layers reflects everything, from both sides, when the light
    grazes it in either layer, and transmits nothing from a layer in which it grazes. *)
Theorem C84_grazing : forall pol (beta n1 n2 : C), valid_pol pol ->
  let grazes n := Re (cos_in beta n) < tan (/ 10 ^ 6) * Re (sin_in beta n) in
  (grazes n1 \/ grazes n2) ->
  exists c, couple_interface pol beta n1 n2 = Ok c /\ c_R c = 1 /\ c_R' c = 1 /\
    (grazes n1 -> c_T c = 0) /\ (grazes n2 -> c_T' c = 0).
Proof.
  intros pol beta n1 n2 Hpol grazes H. unfold couple_interface.
  set (g1 := grazing (sin_in beta n1) (cos_in beta n1)). set (g2 := grazing (sin_in beta n2) (cos_in beta n2)).
  assert (G1 : grazes n1 -> g1 = true) by (intros K; unfold g1, grazing; destruct (Rlt_dec _ _); [reflexivity|contradiction]).
  assert (G2 : grazes n2 -> g2 = true) by (intros K; unfold g2, grazing; destruct (Rlt_dec _ _); [reflexivity|contradiction]).
  assert (G : g1 || g2 = true) by (destruct H as [H|H]; [rewrite (G1 H); reflexivity|rewrite (G2 H); apply orb_true_r]).
  assert (RR : R_from_r 1 = 1) by (unfold R_from_r; rewrite Cmod_1; ring).
  assert (IR : forall a b c d x y, x || y = true -> interface_R pol a b c d x y = Ok 1).
  { intros a b c d x y E. unfold interface_R. rewrite E, RR. destruct Hpol as [-> | ->]; reflexivity. }
  assert (IT : forall a b c d x, exists T, interface_T pol a b c d x = Ok T /\ (x = true -> T = 0)).
  { intros a b c d x. unfold interface_T.
    assert (Q : forall t, exists T, T_from_t pol t a b c d = Ok T /\ (t = RtoC 0 -> T = 0)).
    { intros t. unfold T_from_t. destruct Hpol as [-> | ->]; cbn [String.eqb Ascii.eqb Bool.eqb]; eexists; (split; [reflexivity|]);
        intros ->; rewrite Cmult_0_l, Cmod_0; ring. }
    destruct Hpol as [-> | ->]; cbn [interface_t String.eqb Ascii.eqb Bool.eqb bindR];
      match goal with |- exists T, T_from_t _ ?t _ _ _ _ = _ /\ _ => destruct (Q t) as (T & E & Z) end;
      exists T; (split; [exact E|]); intros ->; apply Z; reflexivity. }
  rewrite IR by exact G. rewrite (IR n2 n1 (cos_in beta n2) (cos_in beta n1) g2 g1) by (now rewrite orb_comm).
  destruct (IT n1 n2 (cos_in beta n1) (cos_in beta n2) g1) as (T & -> & Z1).
  destruct (IT n2 n1 (cos_in beta n2) (cos_in beta n1) g2) as (T' & -> & Z2).
  cbn [bindR]. eexists. split; [reflexivity|]. cbn [c_R c_T c_R' c_T'].
  split; [reflexivity|]. split; [reflexivity|]. split; intros K; [apply Z1, G1, K|apply Z2, G2, K].
Qed.

(** * C112: the assumed profile in an incoherent layer *)
(** The profile decays as Beer and Lambert's law says and contains exactly the light absorbed
    in the layer (per nanometre, over the depths asked for), whatever the fraction of the
    incident light reaching the layer was taken to be, as long as it is not zero. *)
Theorem C112_profile : forall alpha fraction zmax A : R,
  0 < alpha -> 0 < zmax -> fraction <> 0 ->
  let f := beer_lambert alpha fraction zmax A in
  (forall z, is_derive f z (- alpha * f z)) /\ is_RInt f 0 zmax (A / 10 ^ 9) /\
  (0 <= A -> forall z, 0 <= f z) /\
  (forall fraction', fraction' <> 0 -> forall z, beer_lambert alpha fraction' zmax A z = f z).
Proof.
  intros alpha fr zmax A Ha Hz Hf f.
  assert (HE : exp (- alpha * zmax) < 1).
  { assert (Q : exp (- alpha * zmax) < exp 0) by (apply exp_increasing; nra). rewrite exp_0 in Q. exact Q. }
  assert (Ef : forall fr', fr' <> 0 -> forall z, beer_lambert alpha fr' zmax A z
                = A / (1 - exp (- alpha * zmax)) * (alpha * exp (- alpha * z)) / 10 ^ 9).
  { intros fr' Hf' z. unfold beer_lambert. destruct (Req_EM_T _ 0) as [Q|Q].
    - exfalso. apply Rmult_integral in Q. destruct Q as [Q|Q]; lra.
    - field. repeat split; try assumption; lra. }
  set (k := A / (1 - exp (- alpha * zmax))) in *.
  assert (N9 : 10 ^ 9 <> 0) by (apply pow_nonzero; lra).
  assert (D : forall z, is_derive f z (- alpha * f z)).
  { intros z. apply (is_derive_ext (fun z => k * (alpha * exp (- alpha * z)) / 10 ^ 9)).
    - intros t. symmetry. now apply Ef.
    - unfold f. rewrite Ef by exact Hf. auto_derive; [trivial|]. field; exact N9. }
  split; [exact D|]. split; [|split].
  - apply (is_RInt_ext (fun z => k * (alpha * exp (- alpha * z)) / 10 ^ 9)).
    + intros z _. symmetry. now apply Ef.
    + evar_last.
      * apply (is_RInt_derive (fun z => - k * exp (- alpha * z) / 10 ^ 9)).
        -- intros z _. auto_derive; [trivial|]. field; exact N9.
        -- intros z _. apply (ex_derive_continuous (V := R_NormedModule)). auto_derive. trivial.
      * unfold minus, plus, opp. cbn. rewrite Rmult_0_r, exp_0. unfold k. field; lra.
  - intros HA z. unfold f. rewrite Ef by exact Hf. unfold k, Rdiv.
    assert (Q := exp_pos (- alpha * z)).
    repeat apply Rmult_le_pos; try lra; left; apply Rinv_0_lt_compat; lra.
  - intros fr' Hf' z. unfold f. rewrite !Ef by assumption. reflexivity.
Qed.

(** * Examples *)
Lemma normal_benign n d : passive 0 n -> Im n <= 100 * Re n -> benign "s" 1000 0 (n, d).
Proof.
  intros P H. right; left. split; [reflexivity|]. cbn [fst]. rewrite cos_in_normal by exact P. rewrite Cmult_1_r.
  destruct P as (P1 & P2 & _). rewrite Rabs_pos_eq; assumption.
Qed.
Lemma Cmod_le z b : 0 <= b -> Re z ^ 2 + Im z ^ 2 <= b ^ 2 -> Cmod z <= b.
Proof.
  intros Hb H. rewrite <- Cmod2 in H. destruct (Rle_dec (Cmod z) b) as [Q|Q]; [exact Q|exfalso].
  assert (K := Cmod_ge_0 z). nra.
Qed.
Lemma Cmod_cexp z : Cmod (cexp z) = exp (Re z).
Proof.
  assert (Q : Cmod (cexp z) ^ 2 = exp (Re z) ^ 2).
  { rewrite Cmod2. unfold cexp. cbn [Re Im fst snd]. assert (S := sin2_cos2 (Im z)). unfold Rsqr in S. nra. }
  assert (K := Cmod_ge_0 (cexp z)). assert (E := exp_pos (Re z)). nra.
Qed.
(** A layer whose interfaces have amplitudes in the given bounds is not opaque. *)
Lemma one_layer_T n m d n' b1 b2 : passive 0 n -> passive 0 m -> passive 0 n' -> 0 <= d ->
  2 * PI * d / 1000 * Im m <= 1 / 2 -> 0 < b1 -> 0 < b2 ->
  Cmod ((n - m) / (m + n))%C <= 1 -> Cmod ((m - n') / (m + n'))%C <= 1 ->
  Cmod ((n + m) / (2 * n))%C <= b1 -> Cmod ((m + n') / (2 * m))%C <= b2 ->
  Re n' / Re n / (b1 * b2 * 3) ^ 2 <= cd_T (out "s" 1000 0 n (cos_in 0 n) [(m, d)] n').
Proof.
  intros P M P' Hd HI B1 B2 R1 R2 T1 T2.
  assert (Hs : valid_pol "s"%string) by now left.
  assert (Fm : Forall (medium_ok "s" 1000 0) [(m, d)] \/ True) by now right. clear Fm.
  assert (Nn := passive_nonzero 0 n P). assert (Nm := passive_nonzero 0 m M). assert (Nn' := passive_nonzero 0 n' P').
  assert (Q1 : (n + m)%C <> RtoC 0).
  { intros E. apply (f_equal Re) in E. destruct P as (P & _), M as (M & _). cbn in E. unfold Re in *. lra. }
  assert (Q2 : (m + n')%C <> RtoC 0).
  { intros E. apply (f_equal Re) in E. destruct P' as (P' & _), M as (M & _). cbn in E. unfold Re in *. lra. }
  assert (Two : RtoC 2 <> RtoC 0) by exact two_neq.
  set (dl_ := dl 1000 0 m d).
  assert (Edl : Im dl_ <= 1 / 2 /\ 0 <= Im dl_).
  { unfold dl_, dl, delta_of, med. cbn [fst snd]. rewrite cos_in_normal by exact M. rewrite delta_parts by lra. rewrite Cmult_1_r.
    assert (Z : 0 <= 2 * PI * d / 1000 * Im m).
    { destruct M as (_ & M & _). assert (HPI := PI_RGT_0). apply Rmult_le_pos; [|exact M].
      set (pi := PI) in *. clearbody pi. assert (0 <= pi * d) by nra. lra. }
    unfold cap_delta. cbn [Im snd]. destruct (Rlt_dec 100 _) as [Q|Q]; [exfalso; lra|]. cbn [Im snd]. lra. }
  assert (Em : m00 (mt "s" 1000 0 n [(m, d)] n')
    = ((n + m) / (2 * n) * ((m + n') / (2 * m)) * (cexp (- (Ci * dl_)) + (n - m) / (m + n) * ((m - n') / (m + n')) * cexp (Ci * dl_)))%C).
  { unfold mt, mtilde. cbn [lms nxt fold_left]. fold dl_. unfold jmat, pmat, mmul, mscale, mid. cbn [m00 m01 m10 m11].
    unfold rq, tq, den, fa, fb, med. cbn [String.eqb Ascii.eqb Bool.eqb fst snd]. rewrite !cos_in_normal by assumption.
    generalize (cexp (- (Ci * dl_)))%C (cexp (Ci * dl_))%C. intros e1 e2. field.
    repeat split; try assumption; now rewrite Cplus_comm. }
  assert (Bm : Cmod (m00 (mt "s" 1000 0 n [(m, d)] n')) <= b1 * b2 * 3).
  { rewrite Em, !Cmod_mult.
    assert (Z : Cmod (cexp (- (Ci * dl_)) + (n - m) / (m + n) * ((m - n') / (m + n')) * cexp (Ci * dl_))%C <= 3).
    { eapply Rle_trans; [apply Cmod_triangle|]. rewrite !Cmod_mult, !Cmod_cexp.
      replace (Re (- (Ci * dl_))%C) with (Im dl_) by (destruct dl_; cbn; ring).
      replace (Re (Ci * dl_)%C) with (- Im dl_) by (destruct dl_; cbn; ring).
      assert (X1 : exp (- Im dl_) <= 1).
      { destruct (Req_dec (Im dl_) 0) as [W|W]; [rewrite W, Ropp_0, exp_0; lra|].
        assert (U : exp (- Im dl_) < exp 0) by (apply exp_increasing; lra). rewrite exp_0 in U. lra. }
      assert (X2 : exp (Im dl_) <= 2).
      { assert (Y : exp (- Im dl_) >= 1 / 2).
        { destruct (Req_dec (Im dl_) 0) as [W|W]; [rewrite W, Ropp_0, exp_0; lra|].
          assert (U := exp_ineq1 (- Im dl_) ltac:(lra)). lra. }
        assert (U : exp (Im dl_) * exp (- Im dl_) = 1) by (rewrite <- exp_plus, Rplus_opp_r; apply exp_0).
        assert (V := exp_pos (Im dl_)). nra. }
      assert (X3 := exp_pos (- Im dl_)).
      assert (G1 := Cmod_ge_0 ((n - m) / (m + n))%C). assert (G2 := Cmod_ge_0 ((m - n') / (m + n'))%C).
      assert (G3 : Cmod ((n - m) / (m + n))%C * Cmod ((m - n') / (m + n'))%C <= 1) by nra.
      assert (G4 : 0 <= Cmod ((n - m) / (m + n))%C * Cmod ((m - n') / (m + n'))%C) by nra. nra. }
    apply Rmult_le_compat; [apply Rmult_le_pos; apply Cmod_ge_0|apply Cmod_ge_0|apply Rmult_le_compat; auto using Cmod_ge_0|exact Z]. }
  assert (Hm : m00 (mt "s" 1000 0 n [(m, d)] n') <> RtoC 0).
  { destruct (Rle_dec (Im m) (100 * Re m)) as [Y|Y].
    - apply (m00_nonzero_passive "s" 1000 0 n [(m, d)] n'); try assumption; try lra.
      constructor; [split; [exact M|split; [exact Hd|now apply normal_benign]]|constructor].
    - apply (m00_nonzero_passive "s" 1000 0 n [(m, d)] n'); try assumption; try lra.
      constructor; [|constructor]. split; [exact M|split; [exact Hd|]]. left. cbn [fst snd].
      rewrite cos_in_normal by exact M. rewrite delta_parts by lra. rewrite Cmult_1_r. cbn [Im snd]. lra. }
  unfold out. cbn [cd_T]. unfold Tv. cbn [String.eqb Ascii.eqb Bool.eqb].
  set (mm := m00 (mt "s" 1000 0 n [(m, d)] n')) in *. clearbody mm. rewrite !cos_in_normal by assumption. rewrite !Cmult_1_r.
  assert (Hp := proj1 (Cmod_gt_0 mm) Hm).
  assert (E1 : Cmod (1 / mm * (1 / mm))%C = / Cmod mm ^ 2).
  { rewrite Cmod_mult. unfold Cdiv. rewrite Cmod_mult, Cmod_1, Cmod_inv by exact Hm. field. lra. }
  rewrite E1. destruct P as (P & _), P' as (P' & _).
  assert (Z : 0 < Re n' / Re n) by now apply Rdiv_lt_0_compat.
  unfold Rdiv at 1. rewrite Rmult_comm. apply Rmult_le_compat_r; [lra|].
  apply Rinv_le_contravar; [now apply pow_lt|]. apply pow_incr. lra.
Qed.
(** 100 nm of an absorbing film (2 + 0.1 i) on 1 mm of glass (1.5) on an absorbing substrate
    (3 + 0.1 i), 1000 nm light from vacuum at normal incidence. *)
Lemma Ok_inj {A} (a b : A) : Ok a = Ok b -> b = a.
Proof. intros H. now injection H. Qed.
Example C84_example :
  let l : list seg := [([((2, 0.1) : C, 100)], ((1.5, 0) : C, Some 1000000)); ([], ((3, 0.1) : C, None))] in
  let beta := 1 * sin 0 in
  structure l /\ steep beta 1 /\ Forall (fun s : seg => steep beta (fst (snd s))) l /\
  Forall (fun s : seg => transparent beta (fst (snd s))) (removelast l) /\
  passive beta (fst (snd (last l ([], (RtoC 0, None))))) /\
  Forall (fun s : seg => Forall (medium_ok "s" 1000 beta) (fst s)) l /\
  Forall (not_opaque "s" 1000 beta) (joints 1 l).
Proof.
  intros l beta. assert (B0 : beta = 0) by (unfold beta; rewrite sin_0; ring). rewrite B0. clearbody beta. clear B0.
  assert (P0 : passive 0 1) by (unfold passive; cbn; lra).
  assert (P1 : passive 0 (2, 0.1)) by (unfold passive; cbn; lra).
  assert (P2 : passive 0 (1.5, 0)) by (unfold passive; cbn; lra).
  assert (P3 : passive 0 (3, 0.1)) by (unfold passive; cbn; lra).
  assert (Hs : valid_pol "s"%string) by now left.
  assert (Tiny : / 10 ^ 30 <= 1 / 1000).
  { unfold Rdiv. rewrite Rmult_1_l. apply Rinv_le_contravar; [lra|]. apply Rle_trans with (10 ^ 3); [lra|]. apply Rle_pow; [lra|lia]. }
  assert (HPI := PI_4). assert (HPI' := PI_RGT_0).
  split; [|split; [|split; [|split; [|split; [|split]]]]].
  - exists [([((2, 0.1) : C, 100)], ((1.5, 0) : C, Some 1000000))], [], (3, 0.1). split; [reflexivity|]. constructor; [discriminate|constructor].
  - now apply steep_normal.
  - constructor; [now apply steep_normal|]. constructor; [now apply steep_normal|constructor].
  - constructor; [|constructor]. unfold transparent. cbn. lra.
  - exact P3.
  - constructor; [|constructor; constructor]. constructor; [|constructor]. split; [exact P1|]. split; [cbn; lra|].
    apply normal_benign; [exact P1|cbn; lra].
  - constructor; [|constructor; [|constructor]].
    + intros d [E|E].
      * rewrite (dat_call "s" 1000 0 Hs 1 _ _ (passive_nonzero 0 1 P0)) in E.
        assert (Ed : d = dat "s" 1000 0 (RtoC 1, [((2, 0.1) : C, 100)], (1.5, 0))) by (apply Ok_inj; exact E). rewrite Ed. unfold dat.
        eapply Rle_trans; [|apply (one_layer_T 1 (2, 0.1) 100 (1.5, 0) 2 1); try assumption; try (cbn; lra); (apply Cmod_le; [lra|cbn; field_simplify; lra])].
        cbn. lra.
      * rewrite (bdat_call "s" 1000 0 Hs 1 _ _ (passive_nonzero 0 1 P0) (passive_nonzero 0 _ P2)) in E.
        assert (Ed : d = bdat "s" 1000 0 (RtoC 1, [((2, 0.1) : C, 100)], (1.5, 0))) by (apply Ok_inj; exact E). rewrite Ed. unfold bdat. cbn [rev app].
        eapply Rle_trans; [|apply (one_layer_T (1.5, 0) (2, 0.1) 100 1 2 1); try assumption; try (cbn; lra); (apply Cmod_le; [lra|cbn; field_simplify; lra])].
        cbn. lra.
    + cbn [joints fst snd].
      assert (M1 : Cmod (2 * (1.5, 0) / ((1.5, 0) + (3, 0.1)))%C ^ 2 >= 1 / 4) by (rewrite Cmod2; cbn; field_simplify; lra).
      assert (M2 : Cmod (2 * (3, 0.1) / ((3, 0.1) + (1.5, 0)))%C ^ 2 >= 1 / 4) by (rewrite Cmod2; cbn; field_simplify; lra).
      assert (C0 : coupled "s" 1000 0 ((1.5, 0) : C, [], (3, 0.1) : C) (jcpl "s" 1000 0 ((1.5, 0) : C, [], (3, 0.1) : C))).
      { split; eexists; (split; [|split; reflexivity]);
          [apply dat_call; [exact Hs|now apply (passive_nonzero 0)]|apply bdat_call; [exact Hs|now apply (passive_nonzero 0)|now apply (passive_nonzero 0)]]. }
      destruct (normal_R _ _ _ P2 P3 C0) as (_ & Q1 & _ & Q2).
      intros d [E|E].
      * rewrite (dat_call "s" 1000 0 Hs (1.5, 0) _ _ (passive_nonzero 0 _ P2)) in E.
        assert (Ed : cd_T d = c_T (jcpl "s" 1000 0 ((1.5, 0) : C, [], (3, 0.1) : C))) by (replace d with (dat "s" 1000 0 ((1.5, 0) : C, [], (3, 0.1) : C)) by congruence; reflexivity).
        rewrite Ed, Q1. cbn [Re fst] in *. nra.
      * rewrite (bdat_call "s" 1000 0 Hs (1.5, 0) _ _ (passive_nonzero 0 _ P2) (passive_nonzero 0 _ P3)) in E.
        assert (Ed : cd_T d = c_T' (jcpl "s" 1000 0 ((1.5, 0) : C, [], (3, 0.1) : C))) by (replace d with (bdat "s" 1000 0 ((1.5, 0) : C, [], (3, 0.1) : C)) by congruence; reflexivity).
        rewrite Ed, Q2. cbn [Re fst] in *. nra.
Qed.
Example C84_grazing_example : Re (cos_in 1 1) < tan (/ 10 ^ 6) * Re (sin_in 1 1).
Proof.
  assert (T : 0 < tan (/ 10 ^ 6)).
  { assert (H : 0 < / 10 ^ 6) by (apply Rinv_0_lt_compat, pow_lt; lra).
    assert (H' : / 10 ^ 6 < 1).
    { rewrite <- Rinv_1. apply Rinv_lt_contravar; [|apply Rlt_pow_R1; [lra|lia]]. rewrite Rmult_1_l. apply pow_lt. lra. }
    assert (P := PI2_1). apply tan_gt_0; lra. }
  assert (S : sin_in 1 1 = RtoC 1) by (unfold sin_in; field; intros E; apply (f_equal Re) in E; cbn in E; lra).
  unfold cos_in. rewrite S. replace (1 - 1 * 1)%C with (RtoC 0) by ring. unfold csqrt. rewrite Cmod_0. cbn [Re fst RtoC].
  replace ((0 + 0) / 2) with 0 by field. rewrite sqrt_0. lra.
Qed.
Example C112_example : 0 < 2000000 /\ 0 < 0.000001 /\ 0.4 <> 0.
Proof. lra. Qed.

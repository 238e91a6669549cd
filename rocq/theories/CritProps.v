(** Properties C61 and C120: optical data of alloys from tabulated compositions. *)
From Coq Require Import Reals String List Bool Arith Lia Lra Psatz Permutation Sorted.
From Verif Require Import Common NumModel InterpModel InterpProps NpModel CritModel.
Import ListNotations.
Open Scope R_scope.
Open Scope list_scope.

(** * Specification *)

(** A table of critical points: different compositions, at least two of them, each with the
    same keys, every key once. *)
Definition keys (d : cps) : list string := map fst d.
Record table_ok (cp : list (R * cps)) : Prop := {
  t_nodup : NoDup (map fst cp);
  t_two : (2 <= length cp)%nat;
  t_keys : forall f d, In (f, d) cp -> NoDup (keys d);
  t_same : forall f d f' d', In (f, d) cp -> In (f', d') cp -> forall k, In k (keys d) -> In k (keys d') }.
(** A value between two others. *)
Definition between (a b x : R) : Prop := Rmin a b <= x <= Rmax a b.

(** * Dictionaries *)
Lemma cp_get_in d k p : NoDup (keys d) -> In (k, p) d -> cp_get d k = Ok p.
Proof.
  unfold cp_get, keys. induction d as [|[k0 p0] d IH]; intros N I; [destruct I|]. cbn [find fst map] in *.
  inversion N as [|x l Nk N' E]; subst. destruct (String.eqb_spec k0 k) as [->|Hne].
  - destruct I as [I|I]; [now injection I as ->|]. exfalso. apply Nk. change k with (fst (k, p)). now apply in_map.
  - destruct I as [I|I]; [injection I as -> _; congruence|]. now apply IH.
Qed.
Lemma cp_get_some d k : In k (keys d) -> exists p, cp_get d k = Ok p /\ In (k, p) d.
Proof.
  unfold cp_get, keys. induction d as [|[k0 p0] d IH]; intros I; [destruct I|]. cbn [find fst map] in *.
  destruct (String.eqb_spec k0 k) as [->|Hne].
  - exists p0. split; [reflexivity|now left].
  - destruct I as [I|I]; [congruence|]. destruct (IH I) as (p & E & J). exists p. split; [exact E|now right].
Qed.
Lemma at_fraction_in {A} (d : list (R * A)) f v : NoDup (map fst d) -> In (f, v) d -> at_fraction d f = Ok v.
Proof.
  unfold at_fraction. induction d as [|[k0 p0] d IH]; intros N I; [destruct I|]. cbn [find fst map] in *.
  inversion N as [|x l Nk N' E]; subst. destruct (Req_EM_T k0 f) as [->|Hne].
  - destruct I as [I|I]; [now injection I as ->|]. exfalso. apply Nk. change f with (fst (f, v)). now apply in_map.
  - destruct I as [I|I]; [injection I as -> _; congruence|]. now apply IH.
Qed.
Lemma mix_spec a up lo : (forall k, In k (keys lo) -> In k (keys up)) ->
  exists r, mix a up lo = Ok r /\ keys r = keys lo /\
    forall k p u, cp_get lo k = Ok p -> cp_get up k = Ok u -> cp_get r k = Ok (along a p u).
Proof.
  induction lo as [|[k0 p0] lo IH]; intros H; cbn [mix].
  - exists []. repeat split. intros k p u E. discriminate.
  - destruct (cp_get_some up k0) as (u0 & E0 & _); [apply H; now left|]. rewrite E0. cbn [bindR].
    destruct IH as (r & -> & K & G); [intros k I; apply H; now right|]. cbn [bindR].
    eexists. split; [reflexivity|]. split; [cbn [keys map fst] in *; f_equal; exact K|].
    intros k p u. unfold cp_get. cbn [find fst]. destruct (String.eqb_spec k0 k) as [->|Hne].
    + intros E1 E2. injection E1 as <-. cbn [snd]. unfold cp_get in E0. rewrite E0 in E2. now injection E2 as <-.
    + apply G.
Qed.

(** * The compositions in order *)
Lemma sorted_increasing l : StronglySorted Rle l -> NoDup l -> increasing l.
Proof.
  intros S N i j H. pose proof (sorted_nondecreasing l S i j ltac:(lia)) as L. destruct L as [L|L]; [exact L|].
  exfalso. assert (i = j) by (apply (proj1 (NoDup_nth l 0) N); [lia|lia|exact L]). lia.
Qed.
Lemma fractions_increasing (cp : list (R * cps)) : NoDup (map fst cp) -> increasing (np_sort (map fst cp)).
Proof.
  intros N. apply sorted_increasing; [apply np_sort_sorted|]. eapply Permutation_NoDup; [apply np_sort_perm|exact N].
Qed.
Lemma fraction_entry (cp : list (R * cps)) i : (i < length cp)%nat ->
  exists d, In (at_ (np_sort (map fst cp)) i, d) cp.
Proof.
  intros H. assert (I : In (at_ (np_sort (map fst cp)) i) (map fst cp)).
  { eapply Permutation_in; [symmetry; apply np_sort_perm|]. apply nth_In. rewrite np_sort_length, map_length. exact H. }
  apply in_map_iff in I as ([f d] & E & I). cbn in E. subst f. eauto.
Qed.
Lemma fraction_index (cp : list (R * cps)) f d : In (f, d) cp ->
  exists i, (i < length cp)%nat /\ at_ (np_sort (map fst cp)) i = f.
Proof.
  intros I. assert (J : In f (np_sort (map fst cp))).
  { eapply Permutation_in; [apply np_sort_perm|]. change f with (fst (f, d)). now apply in_map. }
  apply (In_nth _ _ 0) in J as (i & L & E). rewrite np_sort_length, map_length in L. eauto.
Qed.

(** What the function returns for a given pair of neighbouring entries. *)
Lemma interpolate_at cp target i j dl du : table_ok cp ->
  let fr := np_sort (map fst cp) in
  searchsorted fr target = i -> j = (if Nat.eqb i 0 then length cp - 1 else i - 1)%nat -> (i < length cp)%nat ->
  In (at_ fr j, dl) cp -> In (at_ fr i, du) cp ->
  exists r, interpolate_critical_points cp target = Ok (r, (at_ fr j, at_ fr i), (target - at_ fr j) / (at_ fr i - at_ fr j)) /\
    keys r = keys dl /\
    forall k p u, cp_get dl k = Ok p -> cp_get du k = Ok u ->
      cp_get r k = Ok (along ((target - at_ fr j) / (at_ fr i - at_ fr j)) p u).
Proof.
  intros T fr Hi Hj L Il Iu.
  assert (Lf : length fr = length cp) by (unfold fr; rewrite np_sort_length; apply map_length).
  pose proof (t_two cp T) as T2.
  assert (Inc : increasing fr) by (apply fractions_increasing, T).
  assert (Nij : at_ fr i <> at_ fr j).
  { destruct (Nat.eqb_spec i 0) as [Z|Z].
    - assert (at_ fr i < at_ fr j) by (apply Inc; lia). lra.
    - assert (at_ fr j < at_ fr i) by (apply Inc; lia). lra. }
  destruct (mix_spec ((target - at_ fr j) / (at_ fr i - at_ fr j)) du dl) as (r & E & K & G).
  { intros k I. eapply (t_same cp T); [exact Il|exact Iu|exact I]. }
  exists r. split; [|split; [exact K|exact G]].
  unfold interpolate_critical_points. fold fr. rewrite Hi.
  destruct fr as [|f0 fr'] eqn:Ef; [cbn in Lf; lia|]. rewrite <- Ef in *.
  assert (El : (if Nat.eqb i 0 then at_ fr (length fr - 1) else at_ fr (i - 1)) = at_ fr j).
  { rewrite Hj, Lf. destruct (Nat.eqb i 0); reflexivity. }
  rewrite El. destruct (Nat.leb_spec (length fr) i); [lia|].
  destruct (Req_EM_T (at_ fr i) (at_ fr j)); [congruence|].
  rewrite (at_fraction_in cp _ dl (t_nodup cp T) Il), (at_fraction_in cp _ du (t_nodup cp T) Iu). cbn [bindR].
  rewrite E. reflexivity.
Qed.

(** * C61 *)

(** C61, exactness: at a tabulated composition the points are the tabulated ones. *)
Theorem C61_exact cp t d : table_ok cp -> In (t, d) cp ->
  exists r lo dl, interpolate_critical_points cp t = Ok (r, (lo, t), 1) /\ lo <> t /\ In (lo, dl) cp /\ keys r = keys dl /\
    (forall k, In k (keys r) <-> In k (keys d)) /\ forall k p, In (k, p) d -> cp_get r k = Ok p.
Proof.
  intros T I. set (fr := np_sort (map fst cp)).
  assert (Inc : increasing fr) by (apply fractions_increasing, T).
  assert (Lf : length fr = length cp) by (unfold fr; rewrite np_sort_length; apply map_length).
  destruct (fraction_index cp t d I) as (i & L & Ei). fold fr in Ei.
  destruct (searchsorted_spec fr t Inc) as (S1 & S2 & S3).
  assert (Hi : searchsorted fr t = i).
  { destruct (lt_eq_lt_dec (searchsorted fr t) i) as [[H|H]|H]; [|exact H|].
    - specialize (S3 (searchsorted fr t) ltac:(lia)). assert (at_ fr (searchsorted fr t) < at_ fr i) by (apply Inc; lia). lra.
    - specialize (S2 i H). lra. }
  set (j := if Nat.eqb i 0 then (length cp - 1)%nat else (i - 1)%nat).
  pose proof (t_two cp T) as T2.
  assert (Lj : (j < length cp)%nat) by (unfold j; destruct (Nat.eqb_spec i 0); lia).
  destruct (fraction_entry cp j Lj) as (dl & Il). fold fr in Il.
  assert (Iu : In (at_ fr i, d) cp) by (rewrite Ei; exact I).
  destruct (interpolate_at cp t i j dl d T Hi eq_refl L Il Iu) as (r & E & K & G). fold fr in E, G.
  assert (Nij : at_ fr j <> t).
  { rewrite <- Ei. unfold j. destruct (Nat.eqb_spec i 0) as [Z|Z].
    - assert (at_ fr i < at_ fr (length cp - 1)) by (apply Inc; lia). lra.
    - assert (at_ fr (i - 1) < at_ fr i) by (apply Inc; lia). lra. }
  rewrite Ei in E, G. assert (E1 : (t - at_ fr j) / (t - at_ fr j) = 1) by (field; lra). rewrite E1 in E, G.
  exists r, (at_ fr j), dl. split; [exact E|]. split; [exact Nij|]. split; [exact Il|]. split; [exact K|].
  split.
  - intros k. rewrite K. split; intros J; [eapply (t_same cp T); [exact Il|exact I|exact J]|eapply (t_same cp T); [exact I|exact Il|exact J]].
  - intros k p J. assert (Ik : In k (keys dl)).
    { eapply (t_same cp T); [exact I|exact Il|]. change k with (fst (k, p)). now apply in_map. }
    destruct (cp_get_some dl k Ik) as (q & Eq & _).
    rewrite (G k q p Eq); [|apply cp_get_in; [eapply (t_keys cp T); exact I|exact J]].
    unfold along. destruct p as [x y]. cbn [fst snd]. f_equal. f_equal; ring.
Qed.

(** C61, inside the range: the two compositions used are the neighbours of the target, the
    points are the linear interpolation between theirs and so lie between them. *)
Theorem C61_between cp t lo0 hi0 : table_ok cp -> In lo0 (map fst cp) -> In hi0 (map fst cp) -> lo0 < t < hi0 ->
  exists r lo up dl du, let a := (t - lo) / (up - lo) in
    interpolate_critical_points cp t = Ok (r, (lo, up), a) /\
    In (lo, dl) cp /\ In (up, du) cp /\ lo < t <= up /\ 0 < a <= 1 /\
    (forall f, In f (map fst cp) -> f <= lo \/ up <= f) /\ keys r = keys dl /\
    forall k, In k (keys dl) -> exists pl pu p, In (k, pl) dl /\ In (k, pu) du /\ cp_get r k = Ok p /\
      fst p = fst pl + a * (fst pu - fst pl) /\ snd p = snd pl + a * (snd pu - snd pl) /\
      between (fst pl) (fst pu) (fst p) /\ between (snd pl) (snd pu) (snd p).
Proof.
  intros T Ilo Ihi Ht. set (fr := np_sort (map fst cp)).
  assert (Inc : increasing fr) by (apply fractions_increasing, T).
  assert (Lf : length fr = length cp) by (unfold fr; rewrite np_sort_length; apply map_length).
  destruct (searchsorted_spec fr t Inc) as (S1 & S2 & S3). set (i := searchsorted fr t) in *.
  apply in_map_iff in Ilo as ([l0 d0] & El0 & Ilo). apply in_map_iff in Ihi as ([h0 e0] & Eh0 & Ihi). cbn in El0, Eh0. subst l0 h0.
  destruct (fraction_index cp _ _ Ilo) as (n0 & Ln0 & En0). destruct (fraction_index cp _ _ Ihi) as (m0 & Lm0 & Em0). fold fr in En0, Em0.
  assert (Hi0 : (0 < i)%nat).
  { destruct (le_lt_dec i n0) as [H|H]; [specialize (S3 n0 ltac:(lia)); lra|lia]. }
  assert (Hi1 : (i < length cp)%nat).
  { destruct (le_lt_dec i m0) as [H|H]; [lia|specialize (S2 m0 H); lra]. }
  destruct (fraction_entry cp (i - 1) ltac:(lia)) as (dl & Il). destruct (fraction_entry cp i Hi1) as (du & Iu). fold fr in Il, Iu.
  destruct (interpolate_at cp t i (i - 1) dl du T eq_refl) as (r & E & K & G); try assumption.
  { destruct (Nat.eqb_spec i 0); [lia|reflexivity]. }
  fold fr in E, G. set (lo := at_ fr (i - 1)) in *. set (up := at_ fr i) in *.
  assert (Lt : lo < t) by (apply S2; lia). assert (Tu : t <= up) by (apply S3; lia).
  assert (A : 0 < (t - lo) / (up - lo) <= 1).
  { split; [apply Rmult_lt_0_compat; [lra|apply Rinv_0_lt_compat; lra]|].
    apply Rmult_le_reg_r with (up - lo); [lra|]. unfold Rdiv. rewrite Rmult_assoc, Rinv_l; lra. }
  exists r, lo, up, dl, du. cbn zeta. split; [exact E|]. split; [exact Il|]. split; [exact Iu|]. split; [lra|]. split; [exact A|].
  split; [|split; [exact K|]].
  - intros f If. apply in_map_iff in If as ([f' d] & Ef & If). cbn in Ef. subst f'.
    destruct (fraction_index cp f d If) as (n & Ln & En). fold fr in En. rewrite <- En.
    destruct (le_lt_dec n (i - 1)) as [H|H].
    + left. apply increasing_le; [exact Inc|lia].
    + right. apply increasing_le; [exact Inc|lia].
  - intros k Ik. destruct (cp_get_some dl k Ik) as (pl & Epl & Jl).
    destruct (cp_get_some du k) as (pu & Epu & Ju); [eapply (t_same cp T); [exact Il|exact Iu|exact Ik]|].
    exists pl, pu, (along ((t - lo) / (up - lo)) pl pu).
    split; [exact Jl|]. split; [exact Ju|]. split; [now apply G|]. split; [reflexivity|]. split; [reflexivity|].
    set (a := (t - lo) / (up - lo)) in *. unfold along, between, Rmin, Rmax. cbn [fst snd].
    split; [destruct (Rle_dec (fst pl) (fst pu))|destruct (Rle_dec (snd pl) (snd pu))]; nra.
Qed.

(** Outside the range: above the highest composition IndexError; below the lowest one the
    index -1 selects the highest composition, and the points continue the straight line from
    the highest to the lowest one beyond the latter (factor above 1). *)
Theorem C61_outside cp t : table_ok cp ->
  ((forall f, In f (map fst cp) -> f < t) -> interpolate_critical_points cp t = Err IndexError) /\
  ((forall f, In f (map fst cp) -> t < f) ->
   exists r lo hi dlo dhi, let a := (t - hi) / (lo - hi) in
     interpolate_critical_points cp t = Ok (r, (hi, lo), a) /\ 1 < a /\
     In (lo, dlo) cp /\ In (hi, dhi) cp /\ (forall f, In f (map fst cp) -> lo <= f <= hi) /\
     forall k pl ph, In (k, pl) dlo -> In (k, ph) dhi -> cp_get r k = Ok (along a ph pl)).
Proof.
  intros T. set (fr := np_sort (map fst cp)).
  assert (Inc : increasing fr) by (apply fractions_increasing, T).
  assert (Lf : length fr = length cp) by (unfold fr; rewrite np_sort_length; apply map_length).
  destruct (searchsorted_spec fr t Inc) as (S1 & S2 & S3). pose proof (t_two cp T) as T2.
  assert (Mem : forall n, (n < length cp)%nat -> In (at_ fr n) (map fst cp)).
  { intros n Ln. destruct (fraction_entry cp n Ln) as (d & I). change (at_ fr n) with (fst (at_ fr n, d)). now apply in_map. }
  split; intros H.
  - assert (E : searchsorted fr t = length cp).
    { destruct (Nat.eq_dec (searchsorted fr t) (length cp)) as [E|E]; [exact E|].
      specialize (S3 (searchsorted fr t) ltac:(lia)). specialize (H _ (Mem (searchsorted fr t) ltac:(lia))). lra. }
    unfold interpolate_critical_points. fold fr. rewrite E.
    destruct fr as [|f0 fr'] eqn:Ef; [cbn in Lf; lia|]. rewrite <- Ef in *.
    destruct (Nat.leb_spec (length fr) (length cp)); [reflexivity|lia].
  - assert (E : searchsorted fr t = 0%nat).
    { destruct (Nat.eq_dec (searchsorted fr t) 0) as [E|E]; [exact E|].
      specialize (S2 0%nat ltac:(lia)). specialize (H _ (Mem 0%nat ltac:(lia))). lra. }
    destruct (fraction_entry cp (length cp - 1) ltac:(lia)) as (dh & Ih). destruct (fraction_entry cp 0 ltac:(lia)) as (dl & Il). fold fr in Ih, Il.
    destruct (interpolate_at cp t 0 (length cp - 1) dh dl T E eq_refl ltac:(lia) Ih Il) as (r & Er & K & G). fold fr in Er, G.
    exists r, (at_ fr 0), (at_ fr (length cp - 1)), dl, dh. cbn zeta. split; [exact Er|].
    assert (H0 : t < at_ fr 0) by (apply H, Mem; lia).
    assert (H1 : at_ fr 0 < at_ fr (length cp - 1)) by (apply Inc; lia).
    split; [|split; [exact Il|split; [exact Ih|split]]].
    + apply Rmult_lt_reg_r with (at_ fr (length cp - 1) - at_ fr 0); [lra|].
      replace ((t - at_ fr (length cp - 1)) / (at_ fr 0 - at_ fr (length cp - 1)) * (at_ fr (length cp - 1) - at_ fr 0))
        with (at_ fr (length cp - 1) - t) by (field; lra). lra.
    + intros f If. apply in_map_iff in If as ([f' d] & Ef & If). cbn in Ef. subst f'.
      destruct (fraction_index cp f d If) as (n & Ln & En). fold fr in En. rewrite <- En.
      split; apply increasing_le; try exact Inc; lia.
    + intros k pl ph Jl Jh. apply G; apply cp_get_in; try assumption; eapply (t_keys cp T); eassumption.
Qed.

(** A table with three compositions. *)
Definition ex_cp : list (R * cps) :=
  [(0, [("a"%string, (1, 10)); ("b"%string, (3, 20))]); (1, [("b"%string, (5, 4)); ("a"%string, (2, 6))]);
   (/ 2, [("a"%string, (1, 8)); ("b"%string, (4, 12))])].
Lemma ex_cp_ok : table_ok ex_cp.
Proof.
  split.
  - cbn. repeat constructor; cbn; intros H; repeat destruct H as [H|H]; try lra; assumption.
  - cbn. lia.
  - intros f d H. repeat (destruct H as [H|H]; [injection H as <- <-; cbn; repeat constructor; cbn; intros X; repeat destruct X as [X|X]; try discriminate; assumption|]). destruct H.
  - intros f d f' d' H H' k.
    repeat (destruct H as [H|H]; [injection H as <- <-|]); try (now destruct H);
      (repeat (destruct H' as [H'|H']; [injection H' as <- <-|]); try (now destruct H'); cbn; tauto).
Qed.
Example C61_example : exists r lo, interpolate_critical_points ex_cp 0 = Ok (r, (lo, 0), 1) /\ cp_get r "b" = Ok (3, 20).
Proof.
  destruct (C61_exact ex_cp 0 _ ex_cp_ok (or_introl eq_refl)) as (r & lo & dl & E & _ & _ & _ & _ & G).
  exists r, lo. split; [exact E|apply G; right; now left].
Qed.
Example C61_between_example : exists r lo up, interpolate_critical_points ex_cp (3 / 4) = Ok (r, (lo, up), (3 / 4 - lo) / (up - lo)) /\ lo < 3 / 4 <= up.
Proof.
  destruct (C61_between ex_cp (3 / 4) 0 1 ex_cp_ok) as (r & lo & up & dl & du & E & _ & _ & L & _); [now left|right; now left|lra|].
  exists r, lo, up. split; [exact E|exact L].
Qed.

(** * C120: the spectra *)

(** Wavelengths the code can handle: increasing, from 0 up to below the added bound 1e10. *)
Definition grid_ok (xs : list R) : Prop := increasing xs /\ forall x, In x xs -> 0 <= x < 10 ^ 10.

Lemma insert_cp_perm a l : Permutation (a :: l) (insert_cp a l).
Proof.
  induction l as [|b l IH]; cbn [insert_cp]; [reflexivity|]. destruct (Rle_dec _ _); [reflexivity|].
  etransitivity; [apply perm_swap|]. now constructor.
Qed.
Lemma sort_cps_perm d : Permutation d (sort_cps d).
Proof.
  induction d as [|a d IH]; cbn [sort_cps fold_right]; [reflexivity|].
  etransitivity; [|apply insert_cp_perm]. now constructor.
Qed.
Definition wl (e : string * point) : R := fst (snd e).
Lemma insert_cp_sorted a l : StronglySorted Rle (map wl l) -> StronglySorted Rle (map wl (insert_cp a l)).
Proof.
  induction l as [|b l IH]; intros H; cbn [insert_cp map]; [repeat constructor|].
  cbn [map] in H. inversion H as [|x y H1 H2]; subst. destruct (Rle_dec _ _) as [L|L]; cbn [map].
  - constructor; [exact H|]. constructor; [exact L|]. eapply Forall_impl; [|exact H2]. intros z Hz. unfold wl in *. cbn in Hz. lra.
  - constructor; [now apply IH|]. apply Forall_forall. intros z Hz.
    apply (Permutation_in (l' := map wl (a :: l))) in Hz; [|apply Permutation_map; symmetry; apply insert_cp_perm].
    destruct Hz as [<-|Hz]; [unfold wl; lra|]. rewrite Forall_forall in H2. now apply H2.
Qed.
Lemma sort_cps_sorted d : nondecreasing (map fst (map snd (sort_cps d))).
Proof.
  apply sorted_nondecreasing. rewrite map_map. change (fun x : string * point => fst (snd x)) with wl.
  induction d as [|a d IH]; cbn [sort_cps fold_right]; [constructor|now apply insert_cp_sorted].
Qed.

(** The section of a datum, in terms of wavelengths. *)
Lemma section_count xs ps i : increasing xs -> (i < length xs)%nat -> nondecreasing ps ->
  section_of (map (searchsorted xs) ps) i = count_le ps (at_ xs i).
Proof.
  intros I L N. unfold section_of.
  assert (A : forall p, Nat.leb (searchsorted xs p) i = if Rle_dec p (at_ xs i) then true else false).
  { intros p. destruct (searchsorted_spec xs p I) as (S1 & S2 & S3).
    destruct (Nat.leb_spec (searchsorted xs p) i) as [H|H]; destruct (Rle_dec p (at_ xs i)) as [H'|H']; try reflexivity.
    - specialize (S3 i ltac:(lia)). contradiction.
    - specialize (S2 i H). lra. }
  revert N. induction ps as [|p ps IH]; intros N; [reflexivity|]. cbn [map filter count_le]. rewrite A.
  destruct (Rle_dec p (at_ xs i)) as [H|H]; cbn [length]; [f_equal; apply IH; eapply nondecreasing_tail; exact N|].
  assert (Z : forall l, (forall q, In q l -> p <= q) -> filter (fun s => Nat.leb s i) (map (searchsorted xs) l) = []).
  { induction l as [|q l IHl]; intros G; [reflexivity|]. cbn [map filter]. rewrite A.
    destruct (Rle_dec q (at_ xs i)) as [H'|H']; [specialize (G q (or_introl eq_refl)); lra|]. apply IHl. intros r Hr. apply G. now right. }
  rewrite Z; [reflexivity|]. intros q Hq. apply (In_nth _ _ 0) in Hq as (n & Ln & <-).
  apply (N 0%nat (S n)). cbn [length]. lia.
Qed.

Lemma bx_S ps j : (j < length ps)%nat -> at_ (bounds_x ps) (S j) = fst (nth j ps (0, 0)).
Proof.
  intros H. unfold bounds_x. cbn [nth]. rewrite app_nth1 by (rewrite map_length; exact H).
  change 0 with (fst (0, 0)) at 1. apply map_nth.
Qed.
Lemma by_S ps j : (j < length ps)%nat -> at_ (bounds_y ps) (S j) = snd (nth j ps (0, 0)).
Proof.
  intros H. unfold bounds_y. cbn [nth]. rewrite app_nth1 by (rewrite map_length; exact H).
  change 0 with (snd (0, 0)) at 1. apply map_nth.
Qed.
Lemma bx_last ps : at_ (bounds_x ps) (S (length ps)) = 10 ^ 10.
Proof.
  unfold bounds_x. change (nth (length ps) (map fst ps ++ [10 ^ 10]) 0 = 10 ^ 10).
  assert (E : length (map fst ps) = length ps) by apply map_length. rewrite <- E, app_nth2 by apply le_n. now rewrite Nat.sub_diag.
Qed.
Lemma bx_length ps : length (bounds_x ps) = (length ps + 2)%nat.
Proof. unfold bounds_x. cbn [length]. rewrite app_length, map_length. cbn. lia. Qed.

Lemma section_bounds xs ps i : grid_ok xs -> (i < length xs)%nat -> nondecreasing (map fst ps) ->
  let j := section_of (map (fun p => searchsorted xs (fst p)) ps) i in
  (j <= length ps)%nat /\ at_ (bounds_x ps) j <= at_ xs i < at_ (bounds_x ps) (j + 1) /\
  (forall n, (n < length ps)%nat -> fst (nth n ps (0, 0)) <= at_ xs i -> (n < j)%nat) /\
  (forall n, (n < j)%nat -> fst (nth n ps (0, 0)) <= at_ xs i).
Proof.
  intros [I G] L N. rewrite <- (map_map fst (searchsorted xs)). cbn zeta. rewrite section_count by assumption.
  destruct (count_le_spec _ (at_ xs i) N) as (C1 & C2 & C3). rewrite map_length in C1, C3.
  set (j := count_le (map fst ps) (at_ xs i)) in *.
  assert (M : forall n, at_ (map fst ps) n = fst (nth n ps (0, 0))).
  { intros n. change 0 with (fst (0, 0)) at 1. apply map_nth. }
  pose proof (G (at_ xs i) (nth_In xs 0 L)) as Gi.
  split; [exact C1|]. split; [|split].
  - rewrite Nat.add_1_r. split.
    + destruct j as [|j']; [exact (proj1 Gi)|]. rewrite bx_S by lia. rewrite <- M. apply C2. lia.
    + destruct (Nat.eq_dec j (length ps)) as [->|Hne]; [rewrite bx_last; exact (proj2 Gi)|].
      rewrite bx_S by lia. rewrite <- M. apply C3. lia.
  - intros n Ln Hn. destruct (le_lt_dec j n) as [H|H]; [|exact H]. specialize (C3 n ltac:(lia)). rewrite M in C3. lra.
  - intros n Hn. rewrite <- M. now apply C2.
Qed.

(** The target points in the order of the source points. *)
Lemma reorder_spec ks to_ dst : reorder ks to_ = Ok dst ->
  length dst = length ks /\ forall n, (n < length ks)%nat -> cp_get to_ (nth n ks ""%string) = Ok (nth n dst (0, 0)).
Proof.
  unfold reorder. destruct (forallb _ _); [|discriminate]. destruct (Nat.eqb _ _); [|discriminate].
  intros H. revert dst H. induction ks as [|k ks IH]; intros dst H; cbn [mapR] in H.
  - injection H as <-. split; [reflexivity|]. intros n Hn. cbn in Hn. lia.
  - destruct (cp_get to_ k) as [p|e] eqn:E; [|discriminate]. cbn [bindR] in H.
    destruct (mapR (cp_get to_) ks) as [r|e] eqn:E'; [|discriminate]. cbn [bindR] in H. injection H as <-.
    destruct (IH r eq_refl) as (L & A). split; [cbn; now rewrite L|].
    intros [|n] Hn; [exact E|]. cbn [nth length] in *. apply A. lia.
Qed.
Lemma reorder_ok ks to_ : NoDup ks -> NoDup (keys to_) -> (forall k, In k ks <-> In k (keys to_)) ->
  exists dst, reorder ks to_ = Ok dst.
Proof.
  intros N N' H. unfold reorder.
  assert (F : forallb (fun e : string * point => existsb (String.eqb (fst e)) ks) to_ = true).
  { apply forallb_forall. intros e He. apply existsb_exists. exists (fst e). split; [|apply String.eqb_refl].
    apply H. now apply in_map. }
  rewrite F. assert (L : length to_ = length ks).
  { rewrite <- (map_length fst to_). apply Nat.le_antisymm; apply NoDup_incl_length; try assumption; intros k Ik; now apply H. }
  rewrite L, Nat.eqb_refl. clear L F N N'.
  assert (G : forall l, (forall k, In k l -> In k (keys to_)) -> exists dst, mapR (cp_get to_) l = Ok dst).
  { induction l as [|k l IH]; intros G; cbn [mapR]; [now exists []|].
    destruct (cp_get_some to_ k) as (p & E & _); [apply G; now left|]. rewrite E. cbn [bindR].
    destruct IH as (d & E'); [intros k' Ik'; apply G; now right|]. rewrite E'. cbn [bindR]. eauto. }
  apply G. intros k Ik. now apply H.
Qed.

(** The points between which data are stretched, with their images: both ends and the
    critical points with the same key. *)
Inductive mark (from to_ : cps) : point -> point -> Prop :=
| mark_first : mark from to_ (0, 0) (0, 0)
| mark_last : mark from to_ (10 ^ 10, 0) (10 ^ 10, 0)
| mark_point k p q : In (k, p) from -> In (k, q) to_ -> mark from to_ p q.
(** One set of critical points: every key once, different wavelengths strictly between the ends. *)
Record points_ok (d : cps) : Prop := {
  p_keys : NoDup (keys d);
  p_range : forall k p, In (k, p) d -> 0 < fst p < 10 ^ 10;
  p_diff : forall k p k' p', In (k, p) d -> In (k', p') d -> fst p = fst p' -> k = k' }.
(** The end points or critical points of one set. *)
Definition edge (d : cps) (p : point) : Prop := p = (0, 0) \/ p = (10 ^ 10, 0) \/ exists k, In (k, p) d.
(** No critical point lies strictly between. *)
Definition adjacent (d : cps) (p p' : point) : Prop :=
  edge d p /\ edge d p' /\ fst p < fst p' /\ forall r, edge d r -> fst r <= fst p \/ fst p' <= fst r.
(** Neighbouring values differ. *)
Definition sloped (d : cps) : Prop := forall p p', adjacent d p p' -> snd p <> snd p'.
(** The images are in the order of the originals. *)
Definition same_order (from to_ : cps) : Prop :=
  forall p q p' q', mark from to_ p q -> mark from to_ p' q' -> fst p < fst p' -> fst q < fst q'.

Lemma sort_keys_length d : length (map fst (sort_cps d)) = length d.
Proof. rewrite map_length. symmetry. apply Permutation_length, sort_cps_perm. Qed.
Lemma sort_in d n : (n < length d)%nat ->
  In (nth n (map fst (sort_cps d)) ""%string, nth n (map snd (sort_cps d)) (0, 0)) d.
Proof.
  intros L. assert (L' : (n < length (sort_cps d))%nat) by (rewrite <- (Permutation_length (sort_cps_perm d)); exact L).
  change ""%string with (fst (""%string, (0, 0))). change (0, 0) with (snd (""%string, (0, 0))) at 2. rewrite !map_nth.
  rewrite <- surjective_pairing. eapply Permutation_in; [symmetry; apply sort_cps_perm|]. now apply nth_In.
Qed.
Lemma sort_index d k p : In (k, p) d -> exists n, (n < length d)%nat /\
  nth n (map fst (sort_cps d)) ""%string = k /\ nth n (map snd (sort_cps d)) (0, 0) = p.
Proof.
  intros I. apply (Permutation_in _ (sort_cps_perm d)) in I. apply (In_nth _ _ (""%string, (0, 0))) in I as (n & L & E).
  exists n. split; [rewrite (Permutation_length (sort_cps_perm d)); exact L|].
  change ""%string with (fst (""%string, (0, 0))). change (0, 0) with (snd (""%string, (0, 0))) at 2. rewrite !map_nth, E. now split.
Qed.
Lemma by_last ps : at_ (bounds_y ps) (S (length ps)) = 0.
Proof.
  unfold bounds_y. change (nth (length ps) (map snd ps ++ [0]) 0 = 0).
  assert (E : length (map snd ps) = length ps) by apply map_length. rewrite <- E, app_nth2 by apply le_n. now rewrite Nat.sub_diag.
Qed.
Lemma cp_get_member d k p : cp_get d k = Ok p -> In (k, p) d.
Proof.
  unfold cp_get. destruct (find _ d) as [e|] eqn:E; [|discriminate]. intros H. injection H as <-.
  apply find_some in E as (I & J). apply String.eqb_eq in J. subst k. now rewrite <- surjective_pairing.
Qed.

(** Positions in the sorted lists and marks. *)
Definition idx (src dst : list point) (m : nat) (p q : point) : Prop :=
  at_ (bounds_x src) m = fst p /\ at_ (bounds_y src) m = snd p /\ at_ (bounds_x dst) m = fst q /\ at_ (bounds_y dst) m = snd q.
Definition aligned (from to_ : cps) (dst : list point) : Prop :=
  length dst = length from /\
  forall n, (n < length from)%nat -> cp_get to_ (nth n (map fst (sort_cps from)) ""%string) = Ok (nth n dst (0, 0)).
Lemma src_length from : length (map snd (sort_cps from)) = length from.
Proof. rewrite map_length. symmetry. apply Permutation_length, sort_cps_perm. Qed.
Lemma mark_idx from to_ dst p q : NoDup (keys to_) -> aligned from to_ dst -> mark from to_ p q ->
  exists m, (m <= S (length from))%nat /\ idx (map snd (sort_cps from)) dst m p q.
Proof.
  intros N (L & A) M. pose proof (src_length from) as Ls. destruct M as [| |k p q I J].
  - exists 0%nat. split; [lia|]. repeat split.
  - exists (S (length from)). split; [lia|]. repeat split; cbn [fst snd].
    + rewrite <- Ls. apply bx_last.
    + rewrite <- Ls. apply by_last.
    + rewrite <- L. apply bx_last.
    + rewrite <- L. apply by_last.
  - destruct (sort_index from k p I) as (n & Ln & Ek & Ep). exists (S n). split; [lia|].
    specialize (A n Ln). rewrite Ek, (cp_get_in to_ k q N J) in A. injection A as A.
    repeat split.
    + rewrite bx_S by lia. now rewrite Ep.
    + rewrite by_S by lia. now rewrite Ep.
    + rewrite bx_S by lia. now rewrite <- A.
    + rewrite by_S by lia. now rewrite <- A.
Qed.
Lemma idx_mark from to_ dst m : aligned from to_ dst -> (m <= S (length from))%nat ->
  exists p q, mark from to_ p q /\ idx (map snd (sort_cps from)) dst m p q.
Proof.
  intros (L & A) H. pose proof (src_length from) as Ls. destruct m as [|n].
  - exists (0, 0), (0, 0). split; [constructor|repeat split].
  - destruct (Nat.eq_dec n (length from)) as [->|Hne].
    + exists (10 ^ 10, 0), (10 ^ 10, 0). split; [constructor|]. repeat split; cbn [fst snd].
      * rewrite <- Ls. apply bx_last.
      * rewrite <- Ls. apply by_last.
      * rewrite <- L. apply bx_last.
      * rewrite <- L. apply by_last.
    + assert (Hn : (n < length from)%nat) by lia.
      exists (nth n (map snd (sort_cps from)) (0, 0)), (nth n dst (0, 0)). split.
      * eapply mark_point; [apply sort_in; exact Hn|]. apply cp_get_member, A. exact Hn.
      * repeat split; rewrite ?bx_S, ?by_S by lia; reflexivity.
Qed.
Lemma edge_idx from p : edge from p -> exists m, (m <= S (length from))%nat /\
  at_ (bounds_x (map snd (sort_cps from))) m = fst p /\ at_ (bounds_y (map snd (sort_cps from))) m = snd p.
Proof.
  pose proof (src_length from) as Ls. intros [->|[->|(k & I)]].
  - exists 0%nat. split; [lia|now split].
  - exists (S (length from)). split; [lia|]. rewrite <- Ls, bx_last, by_last. now split.
  - destruct (sort_index from k p I) as (n & Ln & Ek & Ep). exists (S n). split; [lia|].
    rewrite bx_S, by_S by lia. now rewrite Ep.
Qed.
Lemma idx_edge from m : (m <= S (length from))%nat -> exists p, edge from p /\
  at_ (bounds_x (map snd (sort_cps from))) m = fst p /\ at_ (bounds_y (map snd (sort_cps from))) m = snd p.
Proof.
  intros H. pose proof (src_length from) as Ls. destruct m as [|n].
  - exists (0, 0). split; [now left|now split].
  - destruct (Nat.eq_dec n (length from)) as [->|Hne].
    + exists (10 ^ 10, 0). split; [right; now left|]. rewrite <- Ls, bx_last, by_last. now split.
    + exists (nth n (map snd (sort_cps from)) (0, 0)). split; [|rewrite bx_S, by_S by lia; now split].
      right. right. eexists. apply sort_in. lia.
Qed.
Lemma pow10_pos : 0 < 10 ^ 10.
Proof. apply pow_lt. lra. Qed.
Lemma bounds_increasing from : points_ok from -> increasing (bounds_x (map snd (sort_cps from))).
Proof.
  intros [N G D] i j H. rewrite bx_length, src_length in H. pose proof (src_length from) as Ls.
  destruct i as [|i]; destruct j as [|j]; [lia| |lia|].
  - destruct (Nat.eq_dec j (length from)) as [->|Hne].
    + rewrite <- Ls, bx_last. apply pow10_pos.
    + rewrite bx_S by lia. apply (proj1 (G _ _ (sort_in from j ltac:(lia)))).
  - rewrite (bx_S _ i) by lia. destruct (Nat.eq_dec j (length from)) as [->|Hne].
    + rewrite <- Ls, bx_last. apply (proj2 (G _ _ (sort_in from i ltac:(lia)))).
    + rewrite bx_S by lia. pose proof (sort_cps_sorted from i j) as S. rewrite map_length, src_length in S.
      specialize (S ltac:(lia)). change 0 with (fst (0, 0)) in S. rewrite !map_nth in S. destruct S as [S|S]; [exact S|].
      exfalso. pose proof (D _ _ _ _ (sort_in from i ltac:(lia)) (sort_in from j ltac:(lia)) S) as Ek.
      assert (N' : NoDup (map fst (sort_cps from))).
      { eapply Permutation_NoDup; [apply Permutation_map, sort_cps_perm|exact N]. }
      apply (proj1 (NoDup_nth _ ""%string) N') in Ek; rewrite ?sort_keys_length; lia.
Qed.

Lemma transform_inv xs ys from to_ tx ty : transform xs ys from to_ = Ok (tx, ty) ->
  exists dst, aligned from to_ dst /\
    let src := map snd (sort_cps from) in
    let sec := section_of (map (fun p => searchsorted xs (fst p)) src) in
    tx = map (fun i => stretch (bounds_x src) (bounds_x dst) (sec i) (at_ xs i)) (seq 0 (length xs)) /\
    ty = map (fun i => stretch (bounds_y src) (bounds_y dst) (sec i) (at_ ys i)) (seq 0 (length xs)).
Proof.
  unfold transform. destruct (reorder _ _) as [dst|e] eqn:E; [|discriminate]. cbn [bindR]. intros H.
  apply (f_equal (fun x => match x with Ok y => y | Err _ => ([], []) end)) in H. injection H as <- <-.
  apply reorder_spec in E as (L & A). rewrite sort_keys_length in L, A. exists dst. repeat split; assumption.
Qed.
Lemma nth_map_seq {A} (f : nat -> A) n i d : (i < n)%nat -> nth i (map f (seq 0 n)) d = f i.
Proof.
  intros H. rewrite (nth_indep _ d (f 0%nat)) by (rewrite map_length, seq_length; exact H).
  rewrite map_nth, seq_nth by exact H. reflexivity.
Qed.

(** C120, position: a datum keeps its relative position between the two neighbouring
    critical points (or ends), in wavelength and in value. *)
Theorem C120_position xs ys from to_ tx ty : grid_ok xs -> length ys = length xs -> points_ok from -> NoDup (keys to_) ->
  transform xs ys from to_ = Ok (tx, ty) ->
  length tx = length xs /\ length ty = length xs /\
  forall i p1 q1 p2 q2, (i < length xs)%nat -> mark from to_ p1 q1 -> mark from to_ p2 q2 -> adjacent from p1 p2 ->
    fst p1 <= at_ xs i < fst p2 ->
    nth i tx None = Some (fst q1 + (at_ xs i - fst p1) / (fst p2 - fst p1) * (fst q2 - fst q1)) /\
    nth i ty None = if Req_EM_T (snd p2) (snd p1) then None
                    else Some (snd q1 + (at_ ys i - snd p1) / (snd p2 - snd p1) * (snd q2 - snd q1)).
Proof.
  intros G Ly P N H. apply transform_inv in H as (dst & A & E). cbn zeta in E. destruct E as [-> ->].
  split; [now rewrite map_length, seq_length|]. split; [now rewrite map_length, seq_length|].
  intros i p1 q1 p2 q2 Li M1 M2 (_ & _ & L12 & Adj) Hx. rewrite !nth_map_seq by exact Li.
  destruct (mark_idx _ _ _ _ _ N A M1) as (m1 & L1 & X1 & Y1 & U1 & V1).
  destruct (mark_idx _ _ _ _ _ N A M2) as (m2 & L2 & X2 & Y2 & U2 & V2).
  destruct (section_bounds xs _ i G Li (sort_cps_sorted from)) as (Lj & B & _). set (j := section_of _ i) in *.
  rewrite src_length in Lj. pose proof (bounds_increasing from P) as Inc.
  assert (Len : length (bounds_x (map snd (sort_cps from))) = (length from + 2)%nat) by (rewrite bx_length, src_length; reflexivity).
  assert (E1 : m1 = j).
  { destruct (lt_eq_lt_dec m1 j) as [[H|H]|H]; [|exact H|].
    - exfalso. assert (S : at_ (bounds_x (map snd (sort_cps from))) m1 < at_ (bounds_x (map snd (sort_cps from))) j) by (apply Inc; lia).
      destruct (idx_edge from j ltac:(lia)) as (r & Er & Xr & _). destruct (Adj r Er); lra.
    - exfalso. pose proof (increasing_le _ (j + 1) m1 Inc ltac:(lia)). lra. }
  assert (E2 : m2 = (j + 1)%nat).
  { destruct (lt_eq_lt_dec m2 (j + 1)) as [[H|H]|H]; [|exact H|].
    - exfalso. pose proof (increasing_le _ m2 j Inc ltac:(lia)). lra.
    - exfalso. assert (S : at_ (bounds_x (map snd (sort_cps from))) (j + 1) < at_ (bounds_x (map snd (sort_cps from))) m2) by (apply Inc; lia).
      destruct (idx_edge from (j + 1) ltac:(lia)) as (r & Er & Xr & _). destruct (Adj r Er); lra. }
  subst m1 m2. unfold stretch. rewrite X1, X2, Y1, Y2, U1, U2, V1, V2.
  split; [|reflexivity]. destruct (Req_EM_T (fst p2) (fst p1)); [lra|reflexivity].
Qed.

(** Every datum lies between two such neighbours. *)
Lemma mark_edge from to_ p q : mark from to_ p q -> edge from p.
Proof. intros [| |k a b I J]; [now left|right; now left|right; right; eauto]. Qed.
Lemma cell from to_ dst x : points_ok from -> aligned from to_ dst -> 0 <= x < 10 ^ 10 ->
  exists p1 q1 p2 q2, mark from to_ p1 q1 /\ mark from to_ p2 q2 /\ adjacent from p1 p2 /\ fst p1 <= x < fst p2.
Proof.
  intros P A Hx. pose proof (bounds_increasing from P) as Inc.
  assert (G : grid_ok [x]).
  { split; [intros i j H; cbn in H; lia|]. intros y [<-|[]]. exact Hx. }
  destruct (section_bounds [x] _ 0 G ltac:(cbn; lia) (sort_cps_sorted from)) as (Lj & B & _). set (j := section_of _ 0) in *.
  rewrite src_length in Lj.
  assert (Len : length (bounds_x (map snd (sort_cps from))) = (length from + 2)%nat) by (rewrite bx_length, src_length; reflexivity).
  destruct (idx_mark from to_ dst j A ltac:(lia)) as (p1 & q1 & M1 & X1 & _).
  destruct (idx_mark from to_ dst (j + 1) A ltac:(lia)) as (p2 & q2 & M2 & X2 & _).
  exists p1, q1, p2, q2. split; [exact M1|]. split; [exact M2|]. rewrite X1, X2 in B. cbn [nth] in B. split; [|exact B].
  split; [eapply mark_edge; exact M1|]. split; [eapply mark_edge; exact M2|]. split; [lra|].
  intros r Er. destruct (edge_idx from r Er) as (m & Lm & Xm & _). rewrite <- Xm, <- X1, <- X2.
  destruct (le_lt_dec m j) as [H|H]; [left|right]; apply increasing_le; try exact Inc; lia.
Qed.
Lemma mark_image from to_ p1 q1 p2 q2 : points_ok from -> NoDup (keys to_) ->
  mark from to_ p1 q1 -> mark from to_ p2 q2 -> fst p1 = fst p2 -> q1 = q2.
Proof.
  intros [N G D] N' M1 M2 E. pose proof pow10_pos as Z.
  destruct M1 as [| |k1 p1 q1 I1 J1]; destruct M2 as [| |k2 p2 q2 I2 J2]; cbn [fst] in E; try reflexivity; try (exfalso; lra).
  - pose proof (G _ _ I2). exfalso; lra.
  - pose proof (G _ _ I2). exfalso; lra.
  - pose proof (G _ _ I1). exfalso; lra.
  - pose proof (G _ _ I1). exfalso; lra.
  - assert (k1 = k2) by (eapply D; eassumption). subst k2.
    pose proof (cp_get_in to_ k1 q1 N' J1) as A1. rewrite (cp_get_in to_ k1 q2 N' J2) in A1. congruence.
Qed.

(** C120, order: when the target points are in the order of the source points, the
    transformed wavelengths are numbers and increase. *)
Lemma nth_map_at {A} (l : list R) (f : R -> A) i d : (i < length l)%nat -> nth i (map f l) d = f (at_ l i).
Proof. intros H. rewrite (nth_indep _ d (f 0)) by (rewrite map_length; exact H). apply map_nth. Qed.
Lemma all_some (l : list (option R)) : (forall i, (i < length l)%nat -> exists v, nth i l None = Some v) -> exists r, l = map Some r.
Proof.
  induction l as [|a l IH]; intros H; [now exists []|].
  destruct (H 0%nat ltac:(cbn; lia)) as (v & E). cbn in E. destruct IH as (r & ->).
  { intros i Hi. apply (H (S i)). cbn. lia. }
  exists (v :: r). now rewrite E.
Qed.
Theorem C120_order xs ys from to_ tx ty : grid_ok xs -> length ys = length xs -> points_ok from -> NoDup (keys to_) ->
  same_order from to_ -> transform xs ys from to_ = Ok (tx, ty) ->
  exists l, tx = map Some l /\ length l = length xs /\ increasing l.
Proof.
  intros G Ly P N O H. pose proof (C120_position _ _ _ _ _ _ G Ly P N H) as (L1 & L2 & Pos).
  apply transform_inv in H as (dst & A & _).
  assert (C : forall i, (i < length xs)%nat -> exists p1 q1 p2 q2, mark from to_ p1 q1 /\ mark from to_ p2 q2 /\
            adjacent from p1 p2 /\ fst p1 <= at_ xs i < fst p2).
  { intros i Hi. apply (cell from to_ dst); try assumption. apply (proj2 G), nth_In, Hi. }
  destruct (all_some tx) as (l & El).
  { intros i Hi. rewrite L1 in Hi. destruct (C i Hi) as (p1 & q1 & p2 & q2 & M1 & M2 & Ad & B).
    eexists. apply (Pos i p1 q1 p2 q2 Hi M1 M2 Ad B). }
  assert (Ll : length l = length xs) by (rewrite <- L1, El; symmetry; apply map_length).
  exists l. split; [exact El|]. split; [exact Ll|].
  assert (V : forall i, (i < length xs)%nat -> exists p1 q1 p2 q2, mark from to_ p1 q1 /\ mark from to_ p2 q2 /\
            adjacent from p1 p2 /\ fst p1 <= at_ xs i < fst p2 /\
            at_ l i = fst q1 + (at_ xs i - fst p1) / (fst p2 - fst p1) * (fst q2 - fst q1) /\ fst q1 <= at_ l i < fst q2).
  { intros i Hi. destruct (C i Hi) as (p1 & q1 & p2 & q2 & M1 & M2 & Ad & B).
    pose proof (proj1 (Pos i p1 q1 p2 q2 Hi M1 M2 Ad B)) as E. rewrite El, nth_map_at in E by lia. injection E as E.
    assert (Q : fst q1 < fst q2) by (eapply O; [exact M1|exact M2|lra]).
    exists p1, q1, p2, q2. repeat (split; [assumption|]). rewrite E.
    assert (W : 0 <= (at_ xs i - fst p1) / (fst p2 - fst p1) < 1).
    { split; [apply Rmult_le_pos; [lra|left; apply Rinv_0_lt_compat; lra]|].
      apply Rmult_lt_reg_r with (fst p2 - fst p1); [lra|]. unfold Rdiv. rewrite Rmult_assoc, Rinv_l; lra. }
    split; nra. }
  intros i j Hij. rewrite Ll in Hij.
  destruct (V i ltac:(lia)) as (p1 & q1 & p2 & q2 & M1 & M2 & Ad & B & E & I).
  destruct (V j ltac:(lia)) as (p3 & q3 & p4 & q4 & M3 & M4 & Ad' & B' & E' & I').
  assert (Hx : at_ xs i < at_ xs j) by (apply (proj1 G); lia).
  destruct (Rle_lt_dec (fst p2) (fst p3)) as [Hp|Hp].
  - assert (fst q2 <= fst q3).
    { destruct Hp as [Hp|Hp]; [left; eapply O; [exact M2|exact M3|exact Hp]|].
      right. f_equal. eapply mark_image; eassumption. }
    lra.
  - destruct Ad as (_ & _ & _ & Ad). destruct Ad' as (_ & _ & _ & Ad').
    destruct (Ad p3 (mark_edge _ _ _ _ M3)) as [H1|H1]; [|lra].
    destruct (Ad' p1 (mark_edge _ _ _ _ M1)) as [H2|H2]; [|lra].
    assert (E13 : fst p1 = fst p3) by lra.
    destruct (Ad p4 (mark_edge _ _ _ _ M4)) as [H3|H3]; [lra|].
    destruct (Ad' p2 (mark_edge _ _ _ _ M2)) as [H4|H4]; [lra|].
    assert (E24 : fst p2 = fst p4) by lra.
    assert (q1 = q3) by (eapply mark_image; eassumption). assert (q2 = q4) by (eapply mark_image; eassumption). subst q3 q4.
    rewrite E, E', <- E13, <- E24.
    assert (Q : fst q1 < fst q2) by (eapply O; [exact M1|exact M2|lra]).
    assert (W : (at_ xs i - fst p1) / (fst p2 - fst p1) < (at_ xs j - fst p1) / (fst p2 - fst p1)).
    { apply Rmult_lt_compat_r; [apply Rinv_0_lt_compat; lra|lra]. }
    nra.
Qed.

(** C120, critical points: a datum at a critical wavelength is moved to the target
    wavelength of the same critical point; one with the critical value also to its value. *)
Theorem C120_points xs ys from to_ tx ty i k p q : grid_ok xs -> length ys = length xs -> points_ok from -> NoDup (keys to_) ->
  transform xs ys from to_ = Ok (tx, ty) -> (i < length xs)%nat -> In (k, p) from -> In (k, q) to_ -> at_ xs i = fst p ->
  nth i tx None = Some (fst q) /\ (sloped from -> at_ ys i = snd p -> nth i ty None = Some (snd q)).
Proof.
  intros G Ly P N H Li I J Ex. pose proof (C120_position _ _ _ _ _ _ G Ly P N H) as (L1 & L2 & Pos).
  apply transform_inv in H as (dst & A & _).
  destruct (cell from to_ dst (at_ xs i) P A) as (p1 & q1 & p2 & q2 & M1 & M2 & Ad & B); [apply (proj2 G), nth_In, Li|].
  destruct (Pos i p1 q1 p2 q2 Li M1 M2 Ad B) as (Tx & Ty).
  pose proof (mark_point from to_ k p q I J) as M.
  assert (E1 : fst p1 = fst p).
  { destruct Ad as (_ & _ & _ & Ad). destruct (Ad p (mark_edge _ _ _ _ M)); lra. }
  assert (q1 = q) by (eapply mark_image; eassumption). subst q1.
  split.
  - rewrite Tx. f_equal. rewrite Ex, E1. unfold Rdiv. ring.
  - intros S Ey. rewrite Ty. assert (E2 : p1 = p).
    { assert (snd p1 = snd p) as E2.
      { destruct M1 as [| |k1 p1 q1 I1 J1].
        - pose proof (p_range from P _ _ I). cbn in E1. exfalso; lra.
        - pose proof (p_range from P _ _ I). cbn [fst] in E1. exfalso; lra.
        - assert (k1 = k) by (eapply (p_diff from P); eassumption). subst k1.
          pose proof (cp_get_in from k p1 (p_keys from P) I1) as C1. rewrite (cp_get_in from k p (p_keys from P) I) in C1. congruence. }
      destruct p1, p; cbn in *; congruence. }
    subst p1. destruct (Req_EM_T (snd p2) (snd p)) as [E|E]; [exfalso; apply (S _ _ Ad); congruence|].
    f_equal. rewrite Ey. unfold Rdiv. ring.
Qed.

Lemma numbers_some l : numbers (map Some l) = Some l.
Proof. induction l as [|a l IH]; cbn [map numbers]; [reflexivity|]. now rewrite IH. Qed.
Lemma transform_ok xs ys from to_ : NoDup (keys from) -> NoDup (keys to_) -> (forall k, In k (keys from) <-> In k (keys to_)) ->
  exists tx ty, transform xs ys from to_ = Ok (tx, ty).
Proof.
  intros N N' H. unfold transform. destruct (reorder_ok (map fst (sort_cps from)) to_) as (dst & ->).
  - eapply Permutation_NoDup; [apply Permutation_map, sort_cps_perm|exact N].
  - exact N'.
  - intros k. rewrite <- H. unfold keys. split; apply Permutation_in; [symmetry|]; apply Permutation_map, sort_cps_perm.
  - cbn [bindR]. eauto.
Qed.
(** With sloped critical points no value is lost. *)
Lemma transform_numbers xs ys from to_ tx ty : grid_ok xs -> length ys = length xs -> points_ok from -> NoDup (keys to_) ->
  sloped from -> transform xs ys from to_ = Ok (tx, ty) -> exists l m, tx = map Some l /\ ty = map Some m.
Proof.
  intros G Ly P N Sl H. pose proof (C120_position _ _ _ _ _ _ G Ly P N H) as (L1 & L2 & Pos).
  apply transform_inv in H as (dst & A & _).
  assert (V : forall i, (i < length xs)%nat -> (exists v, nth i tx None = Some v) /\ exists v, nth i ty None = Some v).
  { intros i Hi. destruct (cell from to_ dst (at_ xs i) P A) as (p1 & q1 & p2 & q2 & M1 & M2 & Ad & B); [apply (proj2 G), nth_In, Hi|].
    destruct (Pos i p1 q1 p2 q2 Hi M1 M2 Ad B) as (-> & ->). split; [eauto|].
    destruct (Req_EM_T (snd p2) (snd p1)) as [E|E]; [exfalso; apply (Sl _ _ Ad); congruence|eauto]. }
  destruct (all_some tx) as (l & ->); [rewrite L1; intros i Hi; now apply V|].
  destruct (all_some ty) as (m & ->); [rewrite L2; intros i Hi; now apply V|]. eauto.
Qed.
Lemma list_ext_some (l : list (option R)) m : length l = length m -> (forall i, (i < length m)%nat -> nth i l None = Some (at_ m i)) -> l = map Some m.
Proof.
  intros L H. apply (nth_ext _ _ None None); [now rewrite map_length|]. intros i Hi. rewrite H by lia. rewrite nth_map_at by lia. reflexivity.
Qed.

(** C120, identity: with the points of the source as target nothing moves. *)
Theorem C120_identity xs ys from to_ : grid_ok xs -> length ys = length xs -> points_ok from -> sloped from ->
  NoDup (keys to_) -> (forall k p, In (k, p) from -> In (k, p) to_) -> (forall k, In k (keys to_) -> In k (keys from)) ->
  transform xs ys from to_ = Ok (map Some xs, map Some ys).
Proof.
  intros G Ly P Sl N H K.
  destruct (transform_ok xs ys from to_ (p_keys from P) N) as (tx & ty & E).
  { intros k. split; [|apply K]. intros I. apply in_map_iff in I as ([k' p] & Ek & I). cbn in Ek. subst k'.
    change k with (fst (k, p)). apply in_map. now apply H. }
  pose proof (C120_position _ _ _ _ _ _ G Ly P N E) as (L1 & L2 & Pos). pose proof E as E'.
  apply transform_inv in E' as (dst & A & _).
  assert (Same : forall p q, mark from to_ p q -> q = p).
  { intros p q [| |k a b I J]; try reflexivity.
    pose proof (cp_get_in to_ k a N (H _ _ I)) as C1. rewrite (cp_get_in to_ k b N J) in C1. congruence. }
  assert (V : forall i, (i < length xs)%nat -> nth i tx None = Some (at_ xs i) /\ nth i ty None = Some (at_ ys i)).
  { intros i Hi. destruct (cell from to_ dst (at_ xs i) P A) as (p1 & q1 & p2 & q2 & M1 & M2 & Ad & B); [apply (proj2 G), nth_In, Hi|].
    destruct (Pos i p1 q1 p2 q2 Hi M1 M2 Ad B) as (-> & ->). rewrite (Same _ _ M1), (Same _ _ M2).
    pose proof (Sl _ _ Ad) as D. destruct (Req_EM_T (snd p2) (snd p1)) as [Z|Z]; [congruence|].
    split; f_equal; field; [lra|intros Z'; apply Z; lra]. }
  rewrite E. f_equal. f_equal; apply list_ext_some; try lia; intros i Hi; apply V; lia.
Qed.

(** Tables of optical data for the compositions of a table of critical points. *)
Record data_ok (data : list (R * (list R * list R))) (cp : list (R * cps)) : Prop := {
  d_nodup : NoDup (map fst data);
  d_all : forall f d, In (f, d) cp -> points_ok d /\ sloped d /\ exists xs ys, In (f, (xs, ys)) data /\ grid_ok xs /\ length ys = length xs }.

(** C120, tabulated compositions: the spectrum there is the tabulated one (linear between its
    wavelengths). *)
Theorem C120_spectrum data cp t xs ys grid : table_ok cp -> data_ok data cp -> In t (map fst cp) -> In (t, (xs, ys)) data ->
  exists r, critical_point_interpolate data cp t grid = Ok (map (fun v => Some (np_interp xs ys v)) grid, r).
Proof.
  intros T D It Id. apply in_map_iff in It as ([t' d] & Et & It). cbn in Et. subst t'.
  destruct (C61_exact cp t d T It) as (r & lo & dl & E & Nlo & Il & K & Kd & V).
  destruct (d_all _ _ D t d It) as (Pd & Sd & xs' & ys' & Id' & Gd & Ld).
  assert ((xs', ys') = (xs, ys)) as Exy.
  { pose proof (at_fraction_in data t _ (d_nodup _ _ D) Id) as C1. rewrite (at_fraction_in data t _ (d_nodup _ _ D) Id') in C1. congruence. }
  injection Exy as -> ->.
  destruct (d_all _ _ D lo dl Il) as (Pl & Sl & xl & yl & Idl & Gl & Ll).
  assert (Nr : NoDup (keys r)) by (rewrite K; apply (t_keys cp T _ _ Il)).
  exists r. unfold critical_point_interpolate. rewrite E. cbn [bindR].
  rewrite (at_fraction_in data lo _ (d_nodup _ _ D) Idl), (at_fraction_in cp lo _ (t_nodup cp T) Il). cbn [bindR fst snd].
  destruct (transform_ok xl yl dl r (p_keys dl Pl) Nr) as (tx & ty & El); [intros k; now rewrite K|].
  destruct (transform_numbers _ _ _ _ _ _ Gl Ll Pl Nr Sl El) as (l & m & -> & ->). rewrite El. cbn [bindR].
  rewrite (at_fraction_in data t _ (d_nodup _ _ D) Id), (at_fraction_in cp t _ (t_nodup cp T) It). cbn [bindR fst snd].
  rewrite (C120_identity xs ys d r Gd Ld Pd Sd Nr).
  - cbn [bindR]. f_equal. f_equal. apply map_ext. intros v. unfold interp_opt. cbn [fst snd]. rewrite !numbers_some. f_equal. ring.
  - intros k p I. apply cp_get_member, V, I.
  - intros k I. now apply Kd.
Qed.

(** Two sets of points with the same keys in the same order of wavelengths. *)
Definition agree (d d' : cps) : Prop :=
  forall k1 p1 q1 k2 p2 q2, In (k1, p1) d -> In (k1, q1) d' -> In (k2, p2) d -> In (k2, q2) d' -> fst p1 < fst p2 -> fst q1 < fst q2.

(** C120, between: where the two neighbouring compositions have their critical points in the
    same order, both transformed sets of wavelengths increase, and the spectrum passes through
    the interpolated critical points whenever both tables pass through theirs. *)
Theorem C120_between_partial data cp t lo0 hi0 grid : table_ok cp -> data_ok data cp ->
  In lo0 (map fst cp) -> In hi0 (map fst cp) -> lo0 < t < hi0 ->
  (forall f d f' d', In (f, d) cp -> In (f', d') cp -> agree d d') ->
  exists r lo up dl du xl yl xu yu wl hl wu hu, let a := (t - lo) / (up - lo) in
    In (lo, dl) cp /\ In (up, du) cp /\ lo < t <= up /\
    In (lo, (xl, yl)) data /\ In (up, (xu, yu)) data /\
    transform xl yl dl r = Ok (map Some wl, map Some hl) /\ increasing wl /\
    transform xu yu du r = Ok (map Some wu, map Some hu) /\ increasing wu /\
    critical_point_interpolate data cp t grid =
      Ok (map (fun v => Some (a * np_interp wu hu v + (1 - a) * np_interp wl hl v)) grid, r) /\
    forall k pl pu i j v, In (k, pl) dl -> In (k, pu) du -> (i < length xl)%nat -> (j < length xu)%nat ->
      at_ xl i = fst pl -> at_ yl i = snd pl -> at_ xu j = fst pu -> at_ yu j = snd pu ->
      v = fst pl + a * (fst pu - fst pl) ->
      a * np_interp wu hu v + (1 - a) * np_interp wl hl v = snd pl + a * (snd pu - snd pl).
Proof.
  intros T D Ilo Ihi Ht Ag.
  destruct (C61_between cp t lo0 hi0 T Ilo Ihi Ht) as (r & lo & up & dl & du & E & Il & Iu & Lt & A & _ & K & V). cbn zeta in E.
  destruct (d_all _ _ D lo dl Il) as (Pl & Sl & xl & yl & Idl & Gl & Ll).
  destruct (d_all _ _ D up du Iu) as (Pu & Su & xu & yu & Idu & Gu & Lu).
  assert (Nr : NoDup (keys r)) by (rewrite K; apply (t_keys cp T _ _ Il)).
  set (a := (t - lo) / (up - lo)) in *.
  assert (Val : forall k q, In (k, q) r -> exists pl pu, In (k, pl) dl /\ In (k, pu) du /\
            fst q = fst pl + a * (fst pu - fst pl) /\ snd q = snd pl + a * (snd pu - snd pl)).
  { intros k q I. destruct (V k) as (pl & pu & p & Jl & Ju & G & X & Y & _); [rewrite <- K; change k with (fst (k, q)); now apply in_map|].
    rewrite (cp_get_in r k q Nr I) in G. injection G as ->. eauto 6. }
  assert (Un : forall d k p q, NoDup (keys d) -> In (k, p) d -> In (k, q) d -> p = q).
  { intros d k p q N I J. pose proof (cp_get_in d k p N I) as C1. rewrite (cp_get_in d k q N J) in C1. congruence. }
  assert (Rng : forall k q, In (k, q) r -> 0 < fst q < 10 ^ 10).
  { intros k q I. destruct (Val k q I) as (pl & pu & Jl & Ju & -> & _).
    pose proof (p_range dl Pl _ _ Jl). pose proof (p_range du Pu _ _ Ju). nra. }
  pose proof pow10_pos as Z10.
  assert (Ol : same_order dl r).
  { intros p q p' q' M M' L. destruct M as [| |k p q I J]; destruct M' as [| |k' p' q' I' J']; cbn [fst] in *; try lra.
    - apply (Rng _ _ J').
    - pose proof (p_range dl Pl _ _ I'). lra.
    - pose proof (p_range dl Pl _ _ I). lra.
    - apply (Rng _ _ J).
    - destruct (Val k q J) as (pl & pu & Jl & Ju & -> & _). destruct (Val k' q' J') as (pl' & pu' & Jl' & Ju' & -> & _).
      assert (p = pl) by (eapply Un; [apply (p_keys dl Pl)|eassumption|eassumption]). assert (p' = pl') by (eapply Un; [apply (p_keys dl Pl)|eassumption|eassumption]). subst.
      pose proof (Ag _ _ _ _ Il Iu _ _ _ _ _ _ Jl Ju Jl' Ju' L). nra. }
  assert (Ou : same_order du r).
  { intros p q p' q' M M' L. destruct M as [| |k p q I J]; destruct M' as [| |k' p' q' I' J']; cbn [fst] in *; try lra.
    - apply (Rng _ _ J').
    - pose proof (p_range du Pu _ _ I'). lra.
    - pose proof (p_range du Pu _ _ I). lra.
    - apply (Rng _ _ J).
    - destruct (Val k q J) as (pl & pu & Jl & Ju & -> & _). destruct (Val k' q' J') as (pl' & pu' & Jl' & Ju' & -> & _).
      assert (p = pu) by (eapply Un; [apply (p_keys du Pu)|eassumption|eassumption]). assert (p' = pu') by (eapply Un; [apply (p_keys du Pu)|eassumption|eassumption]). subst.
      pose proof (Ag _ _ _ _ Iu Il _ _ _ _ _ _ Ju Jl Ju' Jl' L). nra. }
  destruct (transform_ok xl yl dl r (p_keys dl Pl) Nr) as (tx & ty & El); [intros k; now rewrite K|].
  destruct (transform_ok xu yu du r (p_keys du Pu) Nr) as (sx & sy & Eu).
  { intros k. rewrite K. split; intros J; [eapply (t_same cp T _ _ _ _ Iu Il); exact J|eapply (t_same cp T _ _ _ _ Il Iu); exact J]. }
  destruct (transform_numbers _ _ _ _ _ _ Gl Ll Pl Nr Sl El) as (wl & hl & -> & ->).
  destruct (transform_numbers _ _ _ _ _ _ Gu Lu Pu Nr Su Eu) as (wu & hu & -> & ->).
  destruct (C120_order _ _ _ _ _ _ Gl Ll Pl Nr Ol El) as (wl' & Ewl & Lwl & Iwl).
  destruct (C120_order _ _ _ _ _ _ Gu Lu Pu Nr Ou Eu) as (wu' & Ewu & Lwu & Iwu).
  assert (Inj : forall l m : list R, map Some l = map Some m -> l = m).
  { induction l as [|x l IH]; intros [|y m] H; cbn in H; try discriminate; [reflexivity|]. injection H as -> H. f_equal. now apply IH. }
  apply Inj in Ewl. apply Inj in Ewu. subst wl' wu'.
  exists r, lo, up, dl, du, xl, yl, xu, yu, wl, hl, wu, hu. cbn zeta. fold a.
  do 5 (split; [assumption|]). split; [exact El|]. split; [exact Iwl|]. split; [exact Eu|]. split; [exact Iwu|]. split.
  - unfold critical_point_interpolate. rewrite E. cbn [bindR].
    rewrite (at_fraction_in data lo _ (d_nodup _ _ D) Idl), (at_fraction_in cp lo _ (t_nodup cp T) Il). cbn [bindR fst snd].
    rewrite El. cbn [bindR].
    rewrite (at_fraction_in data up _ (d_nodup _ _ D) Idu), (at_fraction_in cp up _ (t_nodup cp T) Iu). cbn [bindR fst snd].
    rewrite Eu. cbn [bindR]. f_equal. f_equal. apply map_ext. intros v. unfold interp_opt. cbn [fst snd]. rewrite !numbers_some. f_equal. ring.
  - intros k pl pu i j v Jl Ju Li Lj Xl Yl Xu Yu Ev.
    destruct (V k) as (pl' & pu' & q & Jl' & Ju' & Gq & Xq & Yq & _); [change k with (fst (k, pl)); now apply in_map|].
    assert (pl' = pl) by (eapply Un; [apply (p_keys dl Pl)|eassumption|eassumption]). assert (pu' = pu) by (eapply Un; [apply (p_keys du Pu)|eassumption|eassumption]). subst pl' pu'.
    apply cp_get_member in Gq.
    destruct (C120_points _ _ _ _ _ _ i k pl q Gl Ll Pl Nr El Li Jl Gq Xl) as (Wl & Hl). specialize (Hl Sl Yl).
    destruct (C120_points _ _ _ _ _ _ j k pu q Gu Lu Pu Nr Eu Lj Ju Gq Xu) as (Wu & Hu). specialize (Hu Su Yu).
    assert (Lhl : length hl = length xl).
    { pose proof (C120_position _ _ _ _ _ _ Gl Ll Pl Nr El) as (_ & H & _). now rewrite map_length in H. }
    assert (Lhu : length hu = length xu).
    { pose proof (C120_position _ _ _ _ _ _ Gu Lu Pu Nr Eu) as (_ & H & _). now rewrite map_length in H. }
    rewrite nth_map_at in Wl, Hl, Wu, Hu by lia. injection Wl as Wl. injection Hl as Hl. injection Wu as Wu. injection Hu as Hu.
    rewrite Ev, <- Xq.
    rewrite <- Wl at 2. rewrite <- Wu. rewrite !np_interp_node by (assumption || lia). rewrite Hl, Hu, Yq. ring.
Qed.

(** Two compositions with two critical points, and spectra through them. *)
Definition ex_cp2 : list (R * cps) :=
  [(0, [("a"%string, (1, 10)); ("b"%string, (3, 20))]); (1, [("b"%string, (5, 4)); ("a"%string, (2, 6))])].
Definition ex_data : list (R * (list R * list R)) := [(0, ([1; 3], [10; 20])); (1, ([2; 5], [6; 4]))].
Lemma big10 : 1000000000 < 10 ^ 10.
Proof. cbn [pow]. lra. Qed.
Lemma inc2 a b : a < b -> increasing [a; b].
Proof. intros H i j L. cbn [length] in L. assert (i = 0 /\ j = 1)%nat as [-> ->] by lia. exact H. Qed.
Ltac edges H := destruct H as [H|[H|(? & H)]]; [subst|subst|repeat (destruct H as [H|H]; [injection H as <- <-|]); try (now destruct H)].
Ltac in_cps := cbn; repeat (first [left; reflexivity|right]).
Ltac nodup_keys := unfold keys; cbn [map fst]; repeat (apply NoDup_cons; [let X := fresh in intros X; cbn [In] in X; intuition discriminate|]); apply NoDup_nil.
Ltac two_points :=
  pose proof big10;
  split; [split; [nodup_keys
    |intros k p I; repeat (destruct I as [I|I]; [injection I as <- <-; cbn [fst]; lra|]); destruct I
    |intros k p k' p' I I' E; repeat (destruct I as [I|I]; [injection I as <- <-|]); try (now destruct I);
      (repeat (destruct I' as [I'|I']; [injection I' as <- <-|]); try (now destruct I')); cbn [fst] in E; try reflexivity; exfalso; lra]
  |intros p p' (A1 & A2 & A3 & A4); edges A1; edges A2; cbn [fst snd] in *; try lra].
Lemma ex_data_ok : data_ok ex_data ex_cp2.
Proof.
  pose proof big10. split.
  - cbn. repeat constructor; cbn; intros X; repeat destruct X as [X|X]; try lra; assumption.
  - intros f d [E|[E|[]]]; injection E as <- <-; (apply and_assoc; split; [two_points|]).
    + exfalso. destruct (A4 (1, 10)) as [Z|Z]; [right; right; eexists; in_cps|cbn [fst] in Z; lra..].
    + exists [1; 3], [10; 20]. split; [now left|]. split; [|reflexivity]. split; [apply inc2; lra|].
      intros x [<-|[<-|[]]]; lra.
    + exfalso. destruct (A4 (2, 6)) as [Z|Z]; [right; right; exists "a"%string; in_cps|cbn [fst] in Z; lra..].
    + exists [2; 5], [6; 4]. split; [right; now left|]. split; [|reflexivity]. split; [apply inc2; lra|].
      intros x [<-|[<-|[]]]; lra.
Qed.
Lemma ex_cp2_ok : table_ok ex_cp2.
Proof.
  split.
  - cbn. repeat constructor; cbn; intros H; repeat destruct H as [H|H]; try lra; assumption.
  - cbn. lia.
  - intros f d H. repeat (destruct H as [H|H]; [injection H as <- <-; cbn; repeat constructor; cbn; intros X; repeat destruct X as [X|X]; try discriminate; assumption|]). destruct H.
  - intros f d f' d' H H' k.
    repeat (destruct H as [H|H]; [injection H as <- <-|]); try (now destruct H);
      (repeat (destruct H' as [H'|H']; [injection H' as <- <-|]); try (now destruct H'); cbn; tauto).
Qed.
Example C120_example : exists r, critical_point_interpolate ex_data ex_cp2 1 [2; 3] =
  Ok (map (fun v => Some (np_interp [2; 5] [6; 4] v)) [2; 3], r).
Proof. apply C120_spectrum; [exact ex_cp2_ok|exact ex_data_ok|right; now left|right; now left]. Qed.
(** At a quarter: through the point (5/4, 9). *)
Example C120_between_example : exists r, critical_point_interpolate ex_data ex_cp2 (/ 4) [5 / 4] = Ok ([Some 9], r).
Proof.
  destruct (C120_between_partial ex_data ex_cp2 (/ 4) 0 1 [5 / 4] ex_cp2_ok ex_data_ok) as
    (r & lo & up & dl & du & xl & yl & xu & yu & w1 & h1 & w2 & h2 & Il & Iu & Lt & Idl & Idu & _ & _ & _ & _ & E & V);
    [now left|right; now left|lra| |].
  - intros f d f' d' [A|[A|[]]] [B|[B|[]]]; injection A as <- <-; injection B as <- <-;
    intros k1 p1 q1 k2 p2 q2 I1 J1 I2 J2;
    (repeat (destruct I1 as [I1|I1]; [injection I1 as <- <-|]); try (now destruct I1));
    (repeat (destruct I2 as [I2|I2]; [injection I2 as <- <-|]); try (now destruct I2));
    (repeat (destruct J1 as [J1|J1]; [first [discriminate J1|injection J1 as <-]|]); try (now destruct J1));
    (repeat (destruct J2 as [J2|J2]; [first [discriminate J2|injection J2 as <-]|]); try (now destruct J2)); cbn [fst]; lra.
  - exists r. cbn zeta in E. rewrite E. cbn [map].
    destruct Il as [A|[A|[]]]; injection A as <- <-; [|exfalso; lra].
    destruct Iu as [A|[A|[]]]; injection A as <- <-; [exfalso; lra|].
    destruct Idl as [A|[A|[]]]; [injection A as <- <-|exfalso; injection A as A _; lra].
    destruct Idu as [A|[A|[]]]; [exfalso; injection A as A _; lra|injection A as <- <-].
    cbn zeta in V. rewrite (V "a"%string (1, 10) (2, 6) 0%nat 0%nat (5 / 4)); [|in_cps|in_cps|cbn; lia|cbn; lia|reflexivity|reflexivity|reflexivity|reflexivity|cbn [fst]; field].
    cbn [snd]. do 4 f_equal. field.
Qed.

(** The order is not kept with the shipped table of GaAsP (absorption, points 7 to 9 of
    GaAsP-Material/k/critical_points.txt): point 9 comes before point 8 at composition 0 and
    after it at composition 1.  At one half, data at 885 nm and 887 nm of the first
    composition change order, and the interpolation is on wavelengths that do not increase. *)
Definition gaasp : list (R * cps) :=
  [(0, [("7"%string, (8.554099746974826e-07, 0.03853977526477051)); ("8"%string, (8.863809779478708e-07, 0.0016445338035460185));
        ("9"%string, (8.857489166570466e-07, 1.9081603300870967e-06))]);
   (1, [("7"%string, (4.4836250340666555e-07, 0.05752550809912156)); ("8"%string, (4.534189937332596e-07, 0.017885560199857087));
        ("9"%string, (5.48228187356897e-07, 2.2547301129128463e-06))])].
Lemma gaasp_points :
  let d0 := [("7"%string, (8.554099746974826e-07, 0.03853977526477051)); ("8"%string, (8.863809779478708e-07, 0.0016445338035460185));
        ("9"%string, (8.857489166570466e-07, 1.9081603300870967e-06))] in points_ok d0 /\ sloped d0.
Proof.
  cbn zeta. two_points.
  exfalso. destruct (A4 (8.554099746974826e-07, 0.03853977526477051)) as [Z|Z]; [right; right; exists "7"%string; in_cps|cbn [fst] in Z; lra..].
Qed.
Theorem C120_refuted : exists cp t lo dl r up a xs ys tx ty v w,
  table_ok cp /\ In (lo, dl) cp /\ points_ok dl /\ sloped dl /\ grid_ok xs /\ length ys = length xs /\
  interpolate_critical_points cp t = Ok (r, (lo, up), a) /\ lo < t < up /\
  transform xs ys dl r = Ok (tx, ty) /\ at_ xs 0 < at_ xs 1 /\ nth 0 tx None = Some v /\ nth 1 tx None = Some w /\ w < v.
Proof.
  pose proof big10 as Big.
  assert (T : table_ok gaasp).
  { split.
    - cbn. repeat constructor; cbn; intros H; repeat destruct H as [H|H]; try lra; assumption.
    - cbn. lia.
    - intros f d H. repeat (destruct H as [H|H]; [injection H as <- <-; cbn; repeat constructor; cbn; intros X; repeat destruct X as [X|X]; try discriminate; assumption|]). destruct H.
    - intros f d f' d' H H' k.
      repeat (destruct H as [H|H]; [injection H as <- <-|]); try (now destruct H);
        (repeat (destruct H' as [H'|H']; [injection H' as <- <-|]); try (now destruct H'); cbn; tauto). }
  destruct (C61_between gaasp (/ 2) 0 1 T) as (r & lo & up & dl & du & E & Il & Iu & Lt & _ & _ & K & V); [now left|right; now left|lra|].
  destruct Il as [A|[A|[]]]; injection A as <- <-; [|exfalso; lra].
  destruct Iu as [A|[A|[]]]; injection A as <- <-; [exfalso; lra|].
  cbn zeta in E.
  set (d0 := [("7"%string, (8.554099746974826e-07, 0.03853977526477051)); ("8"%string, (8.863809779478708e-07, 0.0016445338035460185));
        ("9"%string, (8.857489166570466e-07, 1.9081603300870967e-06))]) in *.
  pose proof gaasp_points as PS. fold d0 in PS.
  destruct PS as (P & Sl).
  assert (G : grid_ok [8.85e-07; 8.87e-07]).
  { split; [apply inc2; lra|]. intros x [<-|[<-|[]]]; lra. }
  assert (Nr : NoDup (keys r)) by (rewrite K; apply (p_keys _ P)).
  destruct (transform_ok [8.85e-07; 8.87e-07] [1; 1] d0 r (p_keys _ P) Nr) as (tx & ty & Et); [intros k; now rewrite K|].
  pose proof (C120_position _ [1; 1] _ _ _ _ G eq_refl P Nr Et) as (_ & _ & Pos).
  destruct (V "7"%string) as (a7 & b7 & q7 & I7 & J7 & G7 & X7 & _); [in_cps|].
  destruct (V "8"%string) as (a8 & b8 & q8 & I8 & J8 & G8 & X8 & _); [in_cps|].
  destruct (V "9"%string) as (a9 & b9 & q9 & I9 & J9 & G9 & X9 & _); [in_cps|].
  repeat (destruct I7 as [I7|I7]; [first [discriminate I7|injection I7 as <-]|]); try (now destruct I7).
  repeat (destruct J7 as [J7|J7]; [first [discriminate J7|injection J7 as <-]|]); try (now destruct J7).
  repeat (destruct I8 as [I8|I8]; [first [discriminate I8|injection I8 as <-]|]); try (now destruct I8).
  repeat (destruct J8 as [J8|J8]; [first [discriminate J8|injection J8 as <-]|]); try (now destruct J8).
  repeat (destruct I9 as [I9|I9]; [first [discriminate I9|injection I9 as <-]|]); try (now destruct I9).
  repeat (destruct J9 as [J9|J9]; [first [discriminate J9|injection J9 as <-]|]); try (now destruct J9).
  cbn [fst] in X7, X8, X9. apply cp_get_member in G7. apply cp_get_member in G8. apply cp_get_member in G9.
  pose proof (mark_point d0 r "7" (8.554099746974826e-07, 0.03853977526477051) q7 ltac:(in_cps) G7) as M7.
  pose proof (mark_point d0 r "8" (8.863809779478708e-07, 0.0016445338035460185) q8 ltac:(in_cps) G8) as M8.
  pose proof (mark_point d0 r "9" (8.857489166570466e-07, 1.9081603300870967e-06) q9 ltac:(in_cps) G9) as M9.
  destruct (Pos 0%nat _ _ _ _ ltac:(cbn; lia) M7 M9) as (T0 & _); [|cbn [fst nth]; lra|].
  { split; [eapply mark_edge; exact M7|]. split; [eapply mark_edge; exact M9|]. split; [cbn [fst]; lra|].
    intros e Er. unfold d0 in Er. edges Er; cbn [fst]; lra. }
  destruct (Pos 1%nat _ _ _ _ ltac:(cbn; lia) M8 (mark_last d0 r)) as (T1 & _); [|cbn [fst nth]; lra|].
  { split; [eapply mark_edge; exact M8|]. split; [right; now left|]. split; [cbn [fst]; lra|].
    intros e Er. unfold d0 in Er. edges Er; cbn [fst]; lra. }
  cbn [fst nth] in T0, T1.
  exists gaasp, (/ 2), 0, d0, r, 1, ((/ 2 - 0) / (1 - 0)), [8.85e-07; 8.87e-07], [1; 1], tx, ty.
  eexists. eexists. split; [exact T|]. split; [now left|]. split; [exact P|]. split; [exact Sl|]. split; [exact G|].
  split; [reflexivity|]. split; [exact E|]. split; [lra|]. split; [exact Et|]. split; [cbn [nth]; lra|].
  split; [exact T0|]. split; [exact T1|].
  rewrite X7, X8, X9.
  assert (F1 : (8.87e-07 - 8.863809779478708e-07) / (10 ^ 10 - 8.863809779478708e-07) * (10 ^ 10 - (8.863809779478708e-07 + (/ 2 - 0) / (1 - 0) * (4.534189937332596e-07 - 8.863809779478708e-07))) <= 1e-08).
  { set (B := 10 ^ 10) in *. clearbody B. apply Rmult_le_reg_r with (B - 8.863809779478708e-07); [lra|].
    replace ((8.87e-07 - 8.863809779478708e-07) / (B - 8.863809779478708e-07) * (B - (8.863809779478708e-07 + (/ 2 - 0) / (1 - 0) * (4.534189937332596e-07 - 8.863809779478708e-07))) * (B - 8.863809779478708e-07))
      with ((8.87e-07 - 8.863809779478708e-07) * (B - (8.863809779478708e-07 + (/ 2 - 0) / (1 - 0) * (4.534189937332596e-07 - 8.863809779478708e-07)))) by (field; lra).
    lra. }
  set (W := (8.87e-07 - 8.863809779478708e-07) / (10 ^ 10 - 8.863809779478708e-07) * _) in *. clearbody W.
  assert (F2 : 0.9 <= (8.85e-07 - 8.554099746974826e-07) / (8.857489166570466e-07 - 8.554099746974826e-07)).
  { apply Rmult_le_reg_r with (8.857489166570466e-07 - 8.554099746974826e-07); [lra|].
    replace ((8.85e-07 - 8.554099746974826e-07) / (8.857489166570466e-07 - 8.554099746974826e-07) * (8.857489166570466e-07 - 8.554099746974826e-07))
      with (8.85e-07 - 8.554099746974826e-07) by (field; lra). lra. }
  set (U := (8.85e-07 - 8.554099746974826e-07) / _) in *. clearbody U.
  assert (H : (/ 2 - 0) / (1 - 0) = / 2) by field. rewrite H in *. nra.
Qed.

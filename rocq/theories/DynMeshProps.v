(** C196: the adapted mesh of the Fortran module. *)
From Coq Require Import Reals List Bool Arith ZArith Lia Lra Sorted.
From Verif Require Import Common NumModel DynMeshModel.
From Coq Require Import List.
Import ListNotations.
Open Scope R_scope.

(** * Specification *)
(** Strictly increasing positions. *)
Definition rising (l : list R) : Prop := StronglySorted Rlt l.
(** A mesh as CreateMesh leaves it: rising, with the master nodes, also rising, among its nodes,
    the first and the last included. *)
Definition mesh_ok (ms : list R) (X : list node) : Prop :=
  rising (map nx X) /\ rising ms /\ incl ms (map nx X) /\ (2 <= length ms)%nat /\
  hd 0 ms = hd 0 (map nx X) /\ last ms 0 = last (map nx X) 0.

(** * Lists *)
Lemma rising_app l1 l2 : rising l1 -> rising l2 -> (forall a b, In a l1 -> In b l2 -> a < b) -> rising (l1 ++ l2).
Proof.
  induction l1 as [|a l1 IH]; intros h1 h2 h; [exact h2|].
  inversion h1; subst. cbn. constructor.
  - apply IH; auto. intros; apply h; [right|]; auto.
  - apply Forall_app; split; [assumption|]. apply Forall_forall. intros b hb. apply h; [left; auto|auto].
Qed.
Lemma rising_cons a l : rising (a :: l) <-> rising l /\ forall b, In b l -> a < b.
Proof.
  split; intros h.
  - inversion h; subst. split; [assumption|]. apply Forall_forall; assumption.
  - constructor; [apply h|]. apply Forall_forall, h.
Qed.
Lemma rising_seq f s n : (forall i j, (s <= i < j)%nat -> (j < s + n)%nat -> f i < f j) -> rising (map f (seq s n)).
Proof.
  revert s; induction n as [|n IH]; intros s h; cbn; [constructor|]. apply rising_cons; split.
  - apply IH. intros; apply h; lia.
  - intros b hb. apply in_map_iff in hb as (j & <- & hj). apply in_seq in hj. apply h; lia.
Qed.
Lemma rising_last l d : rising l -> forall a, In a l -> a <= last l d.
Proof.
  induction l as [|b l IH]; intros h a ha; [destruct ha|].
  apply rising_cons in h as [h1 h2]. destruct l as [|c l].
  - destruct ha as [->|[]]; cbn; lra.
  - destruct ha as [->|ha].
    + apply Rle_trans with c; [left; apply h2; left; auto|]. apply (IH h1 c); left; auto.
    + apply (IH h1 a ha).
Qed.
Lemma last_app (l1 l2 : list R) d : l2 <> [] -> last (l1 ++ l2) d = last l2 d.
Proof.
  intros h. induction l1 as [|a l1 IH]; [reflexivity|]. cbn. destruct (l1 ++ l2) eqn:e.
  - apply app_eq_nil in e as [_ e]. contradiction.
  - exact IH.
Qed.
Lemma last_def (l : list R) d e : l <> [] -> last l d = last l e.
Proof. induction l as [|a [|b l] IH]; intros h; [contradiction|reflexivity|]. apply IH; discriminate. Qed.
Lemma last_in (l : list R) d : l <> [] -> In (last l d) l.
Proof. induction l as [|a [|b l] IH]; intros h; [contradiction|left; reflexivity|]. right. apply IH; discriminate. Qed.

(** * Dividing an element *)
Lemma pieces_spec a b f : a < b ->
  rising (pieces a b f) /\ (forall y, In y (pieces a b f) -> a < y <= b) /\ last (pieces a b f) 0 = b /\ In b (pieces a b f).
Proof.
  intros hab. unfold pieces.
  assert (P : forall k, (1 <= k < 1 + Z.to_nat (f - 1))%nat -> 0 < IZR f /\ a < a + INR k * (b - a) / IZR f < b).
  { intros k hk. assert (hf : (Z.of_nat k < f)%Z) by lia.
    assert (h0 : 0 < IZR f) by (apply IZR_lt; lia). split; [exact h0|].
    apply IZR_lt in hf. rewrite <- INR_IZR_INZ in hf.
    assert (h1 : 0 < INR k) by (apply lt_0_INR; lia).
    assert (h2 : INR k * (b - a) / IZR f = (b - a) * (INR k / IZR f)) by (field; lra).
    assert (h3 : 0 < INR k / IZR f < 1).
    { split; [apply Rdiv_lt_0_compat; lra|]. apply Rmult_lt_reg_r with (IZR f); [lra|]. unfold Rdiv. rewrite Rmult_assoc, Rinv_l; lra. }
    rewrite h2. nra. }
  repeat split.
  - apply rising_app.
    + apply rising_seq. intros i j hi hj. destruct (P j ltac:(lia)) as [h0 _].
      assert (h1 : INR i < INR j) by (apply lt_INR; lia).
      unfold Rdiv. apply Rplus_lt_compat_l, Rmult_lt_compat_r; [apply Rinv_0_lt_compat; lra|].
      apply Rmult_lt_compat_r; lra.
    + repeat constructor.
    + intros y z hy [<-|[]]. apply in_map_iff in hy as (k & <- & hk). apply in_seq in hk. apply (P k ltac:(lia)).
  - apply in_app_iff in H as [hy|[<-|[]]]; [|lra]. apply in_map_iff in hy as (k & <- & hk). apply in_seq in hk.
    apply (P k ltac:(lia)).
  - apply in_app_iff in H as [hy|[<-|[]]]; [|lra]. apply in_map_iff in hy as (k & <- & hk). apply in_seq in hk.
    left. apply (P k ltac:(lia)).
  - rewrite last_app by discriminate. reflexivity.
  - apply in_app_iff. right; left; reflexivity.
Qed.

Section Mesh.
Context (G : R) (inf_ceil : Z) (beyond : R).

Lemma added_cases ms rg l b xt la p c t : let o := added G inf_ceil ms rg l b xt la p c t in
  (o = [] /\ b = true) \/ exists f, o = pieces (nx p) (nx c) f.
Proof.
  cbn zeta. unfold added. repeat match goal with |- context [if ?d then _ else _] => destruct d eqn:? end; eauto.
  - left. split; [reflexivity|]. unfold join in *. destruct b; [reflexivity|discriminate].
  - right. exists 1%Z. unfold pieces. cbn. reflexivity.
Qed.
Lemma sweep_spec ms rg rest : rest <> [] -> forall l xt la p, xt <= nx p -> rising (nx p :: map (fun e => nx (fst e)) rest) ->
  let o := sweep G inf_ceil ms rg l xt la p rest in
  o <> [] /\ rising o /\ (forall y, In y o -> xt < y) /\ last o 0 = last (map (fun e => nx (fst e)) rest) 0 /\
  (forall c, In (c, false) rest -> In (nx c) o).
Proof.
  induction rest as [|[c b] r IH]; [contradiction|]. intros _ l xt la p hx hr. cbn zeta.
  apply rising_cons in hr as [hr hp]. assert (hc : nx p < nx c) by (apply hp; left; reflexivity).
  destruct r as [|[t tb] r].
  - cbn [sweep map last fst]. destruct (pieces_spec (nx p) (nx c) (ceil_div inf_ceil ((nx c - nx p) / G) (nx c - nx p)) hc) as (h1 & h2 & h3 & h4).
    split; [intros e; rewrite e in h4; destruct h4|]. split; [exact h1|]. split; [intros y hy; specialize (h2 y hy); lra|].
    split; [exact h3|]. intros c' [e|[]]. congruence.
  - cbn [sweep]. fold (sweep G inf_ceil ms rg). set (o := added _ _ _ _ _ _ _ _ _ _ _).
    destruct (added_cases ms rg l b xt la p c t) as [[ho hb]|[f ho]]; fold o in ho.
    + rewrite ho. cbn [app last]. subst b.
      destruct (IH ltac:(discriminate) l xt la c ltac:(lra) hr) as (a1 & a2 & a3 & a4 & a5).
      split; [exact a1|]. split; [exact a2|]. split; [exact a3|]. split; [exact a4|].
      intros c' [e|hin]; [congruence|]. apply a5; exact hin.
    + destruct (pieces_spec (nx p) (nx c) f hc) as (h1 & h2 & h3 & h4). rewrite <- ho in h1, h2, h3, h4.
      assert (hne : o <> []) by (intros e; rewrite e in h4; destruct h4).
      assert (hl : last o xt = nx c) by (rewrite (last_def o xt 0 hne); exact h3).
      rewrite hl.
      assert (e : match o with [] => la | _ => c end = c) by (destruct o; [contradiction|reflexivity]). rewrite e.
      destruct (IH ltac:(discriminate) (if b then l else S l) (nx c) c c ltac:(lra) hr) as (a1 & a2 & a3 & a4 & a5).
      split; [intros e'; apply app_eq_nil in e' as [e' _]; contradiction|].
      split.
      { apply rising_app; auto. intros u v hu hv. specialize (h2 u hu). specialize (a3 v hv). lra. }
      split. { intros y hy. apply in_app_iff in hy as [hy|hy]; [specialize (h2 y hy)|specialize (a3 y hy)]; lra. }
      split. { rewrite last_app by exact a1. exact a4. }
      intros c' [e'|hin]; apply in_app_iff; [left; replace c' with c by congruence; exact h4|right; apply a5, hin].
Qed.

(** * Master nodes *)
Lemma marks_length ms xs : length (marks ms xs) = length xs.
Proof. revert ms; induction xs as [|x r IH]; intros ms; [reflexivity|]. cbn. destruct ms; [|destruct (Rle_dec _ _)]; cbn; rewrite IH; reflexivity. Qed.
Lemma marks_spec xs : rising xs -> forall ms, rising ms -> incl ms xs ->
  Forall2 (fun x b => b = false <-> In x ms) xs (marks ms xs).
Proof.
  induction xs as [|x r IH]; intros hx ms hm hi; [constructor|]. apply rising_cons in hx as [hx hr].
  destruct ms as [|m ms]; cbn.
  - constructor; [split; [discriminate|intros []]|]. apply (IH hx [] hm). intros a [].
  - apply rising_cons in hm as [hm hms].
    assert (hxm : x <= m). { destruct (hi m ltac:(left; auto)) as [<-|h]; [lra|]. left; apply hr, h. }
    destruct (Rle_dec m x) as [e|e].
    + assert (x = m) by lra. subst m. constructor; [split; [left; auto|auto]|].
      assert (hi' : incl ms r). { intros a ha. destruct (hi a ltac:(right; auto)) as [<-|h]; [|exact h]. specialize (hms _ ha). lra. }
      specialize (IH hx ms hm hi'). revert IH.
      generalize (marks ms r). assert (hr' := hr). clear -hr'. intros bs h. induction h; constructor.
      * rewrite H. split; [right; auto|]. intros [e|hh]; [|exact hh]. specialize (hr' x0 ltac:(left; auto)). lra.
      * apply IHh. intros; apply hr'; right; auto.
    + constructor.
      * split; [discriminate|]. intros [->|h]; [lra|]. specialize (hms _ h). lra.
      * apply (IH hx (m :: ms)); [apply rising_cons; auto|]. intros a ha. destruct (hi a ha) as [<-|h]; [|exact h].
        destruct ha as [->|ha]; [lra|]. specialize (hms _ ha). lra.
Qed.
Lemma forall2_combine {A B C} (g : C -> A) (P : A -> B -> Prop) l m : Forall2 P (map g l) m ->
  forall c b, In (c, b) (combine l m) -> P (g c) b.
Proof.
  revert m; induction l as [|a l IH]; intros m h c b hin; inversion h; subst; [destruct hin|].
  destruct hin as [e|hin]; [congruence|]. eapply IH; eassumption.
Qed.
Lemma in_combine_l2 {A B} (l : list A) (m : list B) a : length l = length m -> In a l -> exists b, In (a, b) (combine l m).
Proof.
  revert m; induction l as [|x l IH]; intros [|y m] h hin; try destruct hin; cbn in h; try discriminate.
  - subst. exists y. left; reflexivity.
  - destruct (IH m ltac:(lia) H) as [b hb]. exists b. right; exact hb.
Qed.
Lemma map_combine_fst {A B C} (g : A -> C) (l : list A) (m : list B) : length l = length m ->
  map (fun e => g (fst e)) (combine l m) = map g l.
Proof. revert m; induction l as [|x l IH]; intros [|y m] h; cbn in *; try discriminate; [reflexivity|]. rewrite IH; [reflexivity|lia]. Qed.

(** The head of a proper mesh and the rest of it. *)
Lemma ok_split ms X : mesh_ok ms X -> exists a r m ms', X = a :: r /\ ms = nx a :: m :: ms' /\ r <> [] /\
  rising (map nx r) /\ (forall y, In y (map nx r) -> nx a < y) /\ rising (m :: ms') /\ incl (m :: ms') (map nx r) /\
  last (m :: ms') 0 = last (map nx r) 0.
Proof.
  intros (h1 & h2 & h3 & h4 & h5 & h6). destruct ms as [|m0 [|m ms']]; cbn in h4; try lia.
  destruct X as [|a r]; [destruct (h3 m0 ltac:(left; auto))|]. cbn in h5. subst m0.
  apply rising_cons in h1 as [h1 h1']. apply rising_cons in h2 as [h2 h2'].
  assert (hi : incl (m :: ms') (map nx r)).
  { intros y hy. destruct (h3 y ltac:(right; exact hy)) as [e|h]; [|exact h]. specialize (h2' y hy). lra. }
  exists a, r, m, ms'. repeat split; auto.
  - intros ->. exact (hi m ltac:(left; auto)).
  - destruct (map nx r) eqn:e; [destruct (hi m ltac:(left; auto))|].
    cbn [map] in h6. rewrite e in h6. exact h6.
Qed.

Lemma refined_spec ms X : mesh_ok ms X -> let o := refined G inf_ceil ms X in
  rising o /\ hd 0 o = hd 0 (map nx X) /\ last o 0 = last (map nx X) 0 /\ incl ms o.
Proof.
  intros h. destruct (ok_split ms X h) as (a & r & m & ms' & -> & -> & hr & h1 & h2 & h3 & h4 & h5). cbn zeta.
  unfold refined. cbn [tl]. set (fl := marks (m :: ms') (map nx r)).
  assert (hl : length r = length fl) by (unfold fl; rewrite marks_length, map_length; reflexivity).
  assert (hne : combine r fl <> []). { destruct r; [contradiction|]. destruct fl; [discriminate|]. discriminate. }
  assert (hmap := map_combine_fst nx r fl hl).
  destruct (sweep_spec (nx a :: m :: ms') (length (filter negb fl)) (combine r fl) hne 0 (nx a) a a ltac:(lra)) as (s1 & s2 & s3 & s4 & s5).
  { rewrite hmap. apply rising_cons; auto. }
  rewrite hmap in s4. set (o := sweep _ _ _ _ _ _ _ _ _) in *.
  split; [apply rising_cons; auto|]. split; [reflexivity|]. split.
  { destruct o; [contradiction|]. cbn [map]. destruct (map nx r) eqn:e; [destruct r; [contradiction|discriminate]|]. exact s4. }
  intros y [<-|hy]; [left; reflexivity|right].
  assert (hy' := h4 y hy). apply in_map_iff in hy' as (c & <- & hc).
  destruct (in_combine_l2 r fl c hl hc) as [b hb].
  assert (hs := forall2_combine nx _ r fl (marks_spec _ h1 _ h3 h4) c b hb). cbn in hs.
  apply s5. rewrite (proj2 hs hy) in hb. exact hb.
Qed.

(** The nodes with flags, and the master nodes among them. *)
Definition flags_ok (ms : list R) (l : list (R * bool)) : Prop :=
  rising (map fst l) /\ (forall x b, In (x, b) l -> b = false <-> In x ms) /\ incl ms (map fst l).
Lemma combine_map_fst {A B} (l : list A) (m : list B) : length l = length m -> map fst (combine l m) = l.
Proof. intros h. rewrite <- (map_combine_fst (fun x => x) l m h) at 2 || idtac. revert m h; induction l as [|x l IH]; intros [|y m] h; cbn in *; try discriminate; [reflexivity|]. rewrite IH; [reflexivity|lia]. Qed.
Lemma flagged_fst ms xs : map fst (flagged ms xs) = xs.
Proof. destruct xs as [|x r]; [reflexivity|]. cbn. rewrite combine_map_fst by (rewrite marks_length; reflexivity). reflexivity. Qed.
Lemma flagged_spec m ms xs : rising xs -> rising (m :: ms) -> incl (m :: ms) xs -> hd 0 xs = m -> flags_ok (m :: ms) (flagged (m :: ms) xs).
Proof.
  intros hx hm hi hh. split; [rewrite flagged_fst; exact hx|]. split; [|rewrite flagged_fst; exact hi].
  destruct xs as [|x r]; [intros ? ? []|]. cbn in hh. subst x. cbn [flagged tl].
  apply rising_cons in hx as [hx hr]. apply rising_cons in hm as [hm hms].
  assert (hi' : incl ms r). { intros y hy. destruct (hi y ltac:(right; auto)) as [e|h]; [|exact h]. specialize (hms y hy). lra. }
  intros x b [e|hin].
  - injection e as <- <-. split; [left; auto|auto].
  - assert (h := marks_spec r hx ms hm hi'). rewrite <- (map_id r) in h at 1.
    assert (hs := forall2_combine (fun z => z) _ r (marks ms r) h x b hin). cbn in hs. rewrite hs.
    split; [right; auto|]. intros [e|hh]; [|exact hh].
    assert (hxr : In x r) by (eapply in_combine_l; exact hin). specialize (hr x hxr). lra.
Qed.

(** * Smoothing *)
Lemma smooth_rest_spec l : forall left, rising (left :: map fst l) -> (l = [] \/ snd (last l (0, false)) = false) ->
  rising (left :: map fst (smooth_rest beyond left l)) /\ Forall2 (fun p q => snd p = snd q /\ (snd p = false -> fst p = fst q)) l (smooth_rest beyond left l).
Proof.
  induction l as [|[x b] r IH]; intros left h hl; [split; [exact h|constructor]|].
  cbn [smooth_rest]. set (x' := if b then _ else _).
  cbn [map fst] in h. apply rising_cons in h as [h1 h2]. assert (h3 := h1). apply rising_cons in h1 as [h1 h1'].
  assert (hx : left < x) by (apply h2; left; auto).
  assert (hx' : left < x' /\ (forall y, In y (map fst r) -> x' < y)).
  { unfold x'. destruct b; [|split; [exact hx|exact h1']]. destruct r as [|[y c] r].
    - destruct hl as [hl|hl]; discriminate.
    - assert (x < y) by (apply h1'; left; auto). split; [lra|]. intros z [<-|hz]; cbn; [lra|].
      cbn in h1. apply rising_cons in h1 as [_ h1]. specialize (h1 z hz). lra. }
  destruct (IH x') as [i1 i2].
  - apply rising_cons; split; [exact h1|apply hx'].
  - destruct r; [left; reflexivity|right]. destruct hl as [hl|hl]; [discriminate|]. exact hl.
  - split.
    + cbn [map fst]. apply rising_cons; split; [exact i1|]. intros y [<-|hy]; [apply hx'|].
      apply rising_cons in i1 as [_ i1]. specialize (i1 y hy). lra.
    + constructor; [|exact i2]. split; [reflexivity|]. cbn. intros ->. reflexivity.
Qed.
Definition same_masters (l l' : list (R * bool)) : Prop := Forall2 (fun p q => snd p = snd q /\ (snd p = false -> fst p = fst q)) l l'.
Lemma smooth_pass_spec l : rising (map fst l) -> snd (last l (0, false)) = false ->
  hd false (map snd l) = false ->
  rising (map fst (smooth_pass beyond l)) /\ same_masters l (smooth_pass beyond l).
Proof.
  destruct l as [|[x b] r]; intros h hl hb; [split; [exact h|constructor]|]. cbn [smooth_pass map fst].
  destruct (smooth_rest_spec r x h) as [a1 a2].
  - destruct r; [left; reflexivity|right; exact hl].
  - split; [exact a1|]. constructor; [split; reflexivity|exact a2].
Qed.
Lemma same_refl l : same_masters l l.
Proof. induction l; constructor; auto. Qed.
Lemma same_trans a b c : same_masters a b -> same_masters b c -> same_masters a c.
Proof.
  intros h; revert c; induction h as [|p q a b [e1 e2] h IH]; intros c h'; inversion h'; subst; [constructor|].
  destruct H1 as [g1 g2]. constructor; [|apply IH; assumption]. split; [congruence|].
  intros hp. rewrite e2 by exact hp. apply g2. congruence.
Qed.
Lemma same_last l l' d : same_masters l l' -> snd (last l (d, false)) = false ->
  snd (last l' (d, false)) = false /\ (l <> [] -> fst (last l (d, false)) = fst (last l' (d, false))).
Proof.
  intros h; induction h as [|p q a b [e1 e2] h IH]; intros hl; [split; auto|].
  destruct h as [|p' q' a b e h].
  - cbn in *. split; [congruence|auto].
  - cbn [last] in *. destruct (IH hl) as [i1 i2]. split; [exact i1|]. intros _. apply i2. discriminate.
Qed.
Lemma iter_smooth k l : rising (map fst l) -> snd (last l (0, false)) = false -> hd false (map snd l) = false ->
  rising (map fst (Nat.iter k (smooth_pass beyond) l)) /\ same_masters l (Nat.iter k (smooth_pass beyond) l).
Proof.
  intros h1 h2 h3. induction k as [|k [i1 i2]]; [split; [exact h1|apply same_refl]|].
  cbn [Nat.iter nat_rect] in *. set (l' := Nat.iter k _ l) in *. change (nat_rect _ l _ k) with l' in *.
  destruct (smooth_pass_spec l') as [a1 a2]; auto.
  - apply (same_last l l' 0 i2 h2).
  - destruct i2 as [|p q ? ? [e1 _] ?]; [reflexivity|]. cbn in *. congruence.
  - split; [exact a1|]. eapply same_trans; eassumption.
Qed.
Lemma same_in l l' x b : same_masters l l' -> In (x, b) l' -> exists y, In (y, b) l /\ (b = false -> y = x).
Proof.
  intros h; induction h as [|[p1 p2] [q1 q2] a c [e1 e2] h IH]; intros hin; [destruct hin|].
  cbn in *. destruct hin as [e|hin].
  - injection e as <- <-. exists p1. subst p2. split; [left; reflexivity|exact e2].
  - destruct (IH hin) as (y & h1 & h2). exists y. split; [right; exact h1|exact h2].
Qed.
Lemma same_in' l l' x : same_masters l l' -> In (x, false) l -> In (x, false) l'.
Proof.
  intros h; induction h as [|[p1 p2] [q1 q2] a c [e1 e2] h IH]; intros hin; [destruct hin|].
  cbn in *. destruct hin as [e|hin]; [left|right; auto]. injection e as <- ->. rewrite <- e1, <- e2; reflexivity.
Qed.

(** The new mesh. *)
Lemma last_pair (l : list (R * bool)) : fst (last l (0, false)) = last (map fst l) 0.
Proof. induction l as [|p [|q l] IH]; [reflexivity|reflexivity|]. exact IH. Qed.
Lemma last_pair_in (l : list (R * bool)) : l <> [] -> In (last l (0, false)) l.
Proof. induction l as [|p [|q l] IH]; intros h; [contradiction|left; reflexivity|]. right. apply IH; discriminate. Qed.
Lemma new_mesh_spec ms X : mesh_ok ms X -> let o := new_mesh G inf_ceil beyond ms X in
  rising (map fst o) /\ hd 0 (map fst o) = hd 0 (map nx X) /\ last (map fst o) 0 = last (map nx X) 0 /\
  incl ms (map fst o) /\ (forall x, In (x, false) o -> In x ms) /\ (forall x, In x ms -> In (x, false) o) /\ hd true (map snd o) = false.
Proof.
  intros h. cbn zeta. destruct (refined_spec ms X h) as (r1 & r2 & r3 & r4).
  destruct (ok_split ms X h) as (a & r & m & ms' & eX & em & hr & h1 & h2 & h3 & h4 & h5).
  unfold new_mesh. set (xs := refined G inf_ceil ms X) in *.
  assert (hms : rising ms) by apply h.
  assert (F : flags_ok ms (flagged ms xs)).
  { rewrite em in *. apply flagged_spec; auto. rewrite r2, eX. reflexivity. }
  destruct F as (f1 & f2 & f3). set (l := flagged ms xs) in *.
  assert (hx : map fst l = xs) by apply flagged_fst.
  assert (hne : l <> []). { intros e. rewrite e in f3. rewrite em in f3. destruct (f3 (nx a) ltac:(left; auto)). }
  assert (hlast : snd (last l (0, false)) = false).
  { assert (hin := last_pair_in l hne). destruct (last l (0, false)) as [x b] eqn:e. cbn.
    apply (f2 x b hin). assert (ex : x = last xs 0) by (rewrite <- hx, <- last_pair, e; reflexivity).
    rewrite ex, r3. replace (last (map nx X) 0) with (last ms 0) by apply h. apply last_in. rewrite em; discriminate. }
  assert (hh : hd false (map snd l) = false). { unfold l. destruct xs; reflexivity. }
  destruct (iter_smooth 10 l f1 hlast hh) as [a1 a2]. set (o := Nat.iter 10 _ l) in *.
  assert (hin : forall x, In x ms -> In (x, false) o).
  { intros x hxm. apply (same_in' l o x a2). assert (hx' := f3 x hxm). apply in_map_iff in hx' as ([y b] & e & hb). cbn in e. subst y.
    rewrite (proj2 (f2 x b hb) hxm) in hb. exact hb. }
  split; [exact a1|]. split; [|split; [|split; [|split; [|split; [exact hin|]]]]].
  - rewrite <- r2, <- hx. assert (hd true (map snd l) = false) by (unfold l in *; destruct xs; [contradiction hne; reflexivity|reflexivity]).
    destruct a2 as [|p q ? ? [e1 e2] ?]; [reflexivity|]. cbn in *. symmetry; auto.
  - rewrite <- r3, <- hx, <- !last_pair. symmetry. apply (same_last l o 0 a2 hlast). exact hne.
  - intros x hxm. apply in_map_iff. exists (x, false). auto.
  - intros x hxo. destruct (same_in l o x false a2 hxo) as (y & h7 & h8). rewrite <- (h8 eq_refl). apply (f2 y false h7). reflexivity.
  - assert (hd true (map snd l) = false) by (unfold l in *; destruct xs; [contradiction hne; reflexivity|reflexivity]).
    destruct a2 as [|p q ? ? [e1 e2] ?]; [contradiction hne; reflexivity|]. cbn in *. congruence.
Qed.
End Mesh.

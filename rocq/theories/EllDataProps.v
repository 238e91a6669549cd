(** C183: files of ellipsometry data. *)
From Coq Require Import Reals Ascii String List Bool Arith Lia Lra Permutation Sorted.
From Verif Require Import Common EllDataModel.
From Coq Require Import List.
Import ListNotations.
Open Scope R_scope.
Open Scope list_scope.
Local Arguments in_dec : simpl never.

(** * Specification *)
(** What a line of the file can be, and how it is written. *)
Inductive record :=
| RUnit (cm : bool)
| RMeas (ang wl psi delta epsi edelta : R)
| RDpol (ang wl d ed : R)
| ROther.
Section Spec.
Context (float : string -> option R).
Inductive writes : list string -> record -> Prop :=
| w_nm r : writes ("nm"%string :: r) (RUnit false)
| w_cm r : writes ("1/cm"%string :: r) (RUnit true)
| w_meas tw ta tp td tep ted r wl ang psi delta epsi edelta :
    starts_digit tw = true -> tw <> "1/cm"%string ->
    float tw = Some wl -> float ta = Some ang -> float tp = Some psi -> float td = Some delta -> float tep = Some epsi -> float ted = Some edelta ->
    writes (tw :: ta :: tp :: td :: tep :: ted :: r) (RMeas ang wl psi delta epsi edelta)
| w_E tw ta tp td tep ted r wl ang psi delta epsi edelta :
    float tw = Some wl -> float ta = Some ang -> float tp = Some psi -> float td = Some delta -> float tep = Some epsi -> float ted = Some edelta ->
    writes ("E"%string :: tw :: ta :: tp :: td :: tep :: ted :: r) (RMeas ang wl psi delta epsi edelta)
| w_dpol tw ta td te r wl ang d ed :
    float tw = Some wl -> float ta = Some ang -> float td = Some d -> float te = Some ed ->
    writes ("dpolE"%string :: tw :: ta :: td :: te :: r) (RDpol ang wl d ed)
| w_other t r : starts_digit t = false -> t <> "nm"%string -> t <> "E"%string -> t <> "dpolE"%string -> writes (t :: r) ROther.
End Spec.
(** The angle of a record *)
Definition angle_of (r : record) : option R :=
  match r with RMeas a _ _ _ _ _ | RDpol a _ _ _ => Some a | _ => None end.
(** The points measured at an angle, in the order of the file: wavelength, psi, its error, Delta, its error. *)
Fixpoint points (a : R) (rs : list record) : list (list R) :=
  match rs with
  | [] => []
  | RMeas b wl psi delta epsi edelta :: r => if Req_EM_T b a then [wl; psi; epsi; delta; edelta] :: points a r else points a r
  | _ :: r => points a r
  end.
Fixpoint depolarisations (a : R) (rs : list record) : list (list R) :=
  match rs with
  | [] => []
  | RDpol b wl d ed :: r => if Req_EM_T b a then [wl; d; ed] :: depolarisations a r else depolarisations a r
  | _ :: r => depolarisations a r
  end.
(** The unit of the wavelengths is the last one in the file, or nm. *)
Fixpoint in_cm (u : bool) (rs : list record) : bool :=
  match rs with [] => u | RUnit c :: r => in_cm c r | _ :: r => in_cm u r end.
Definition micrometres (cm : bool) (w : R) : R := if cm then 10000 / w else w / 1000.
Definition to_um (cm : bool) (p : list R) : list R := match p with w :: r => micrometres cm w :: r | [] => [] end.

(** * Lemmas *)
Section DictLemmas.
Context {V : Type}.
Implicit Types l : list (R * V).
Lemma aget_app k l m : aget k (l ++ m) = match aget k l with Some v => Some v | None => aget k m end.
Proof. induction l as [|[a v] l IH]; cbn; [reflexivity|]. destruct (Req_EM_T a k); auto. Qed.
Lemma aget_aput k v l j : aget j (aput k v l) = if Req_EM_T k j then Some v else aget j l.
Proof.
  induction l as [|[a w] l IH]; cbn.
  - reflexivity.
  - destruct (Req_EM_T a k) as [->|N]; cbn.
    + destruct (Req_EM_T k j); reflexivity.
    + rewrite IH. destruct (Req_EM_T a j), (Req_EM_T k j); try reflexivity. congruence.
Qed.
Lemma aget_in k l : aget k l <> None <-> In k (map fst l).
Proof.
  induction l as [|[a v] l IH]; cbn; [split; [congruence|intros []]|]. destruct (Req_EM_T a k); [split; [auto|intros _; discriminate]|].
  rewrite IH. split; [auto|]. intros [Q|Q]; [congruence|exact Q].
Qed.
Lemma aput_keys k v l : aget k l <> None -> map fst (aput k v l) = map fst l.
Proof.
  induction l as [|[a w] l IH]; cbn; [congruence|]. destruct (Req_EM_T a k); cbn; [reflexivity|]. intros H. now rewrite IH.
Qed.
Lemma aput_new k v l : aget k l = None -> aput k v l = l ++ [(k, v)].
Proof. induction l as [|[a w] l IH]; cbn; [reflexivity|]. destruct (Req_EM_T a k); [discriminate|]. intros H. now rewrite IH. Qed.
End DictLemmas.
Lemma points_app a rs qs : points a (rs ++ qs) = points a rs ++ points a qs.
Proof. induction rs as [|[] rs IH]; cbn; auto. destruct (Req_EM_T ang a); cbn; [now rewrite IH|exact IH]. Qed.
Lemma depol_app a rs qs : depolarisations a (rs ++ qs) = depolarisations a rs ++ depolarisations a qs.
Proof. induction rs as [|[] rs IH]; cbn; auto. destruct (Req_EM_T ang a); cbn; [now rewrite IH|exact IH]. Qed.
Lemma in_cm_app u rs qs : in_cm u (rs ++ qs) = in_cm (in_cm u rs) qs.
Proof. revert u. induction rs as [|[] rs IH]; cbn; intros u; auto. Qed.
Lemma tok_some float s i toks v : nth_error toks i = Some s -> float s = Some v -> tok float toks i = Ok v.
Proof. intros H1 H2. unfold tok. now rewrite H1, H2. Qed.

(** What is known after some records *)
Record state_is (e : ell) (rs : list record) : Prop := {
  si_data : forall a, aget a (data e) = if in_dec Req_EM_T a (angles e) then Some (points a rs) else None;
  si_dpol : forall a, aget a (dpol e) = if in_dec Req_EM_T a (angles e) then Some (depolarisations a rs) else None;
  si_keys : map fst (data e) = angles e;
  si_nodup : NoDup (angles e);
  si_angles : forall a, In a (angles e) <-> exists r, In r rs /\ angle_of r = Some a;
  si_units : String.eqb (units e) "1/cm" = in_cm false rs
}.
Lemma none_points a rs : (forall r, In r rs -> angle_of r <> Some a) -> points a rs = [] /\ depolarisations a rs = [].
Proof.
  induction rs as [|x rs IH]; intros H; [split; reflexivity|].
  destruct IH as [I1 I2]; [intros r Hr; apply H; now right|]. assert (Q := H x (or_introl eq_refl)).
  destruct x; cbn in *; auto; destruct (Req_EM_T ang a); try (split; assumption); subst; congruence.
Qed.
Lemma state_other e rs r : state_is e rs -> angle_of r = None -> (forall c, r <> RUnit c) -> state_is e (rs ++ [r]).
Proof.
  intros [] Hr Hu. assert (P : forall a, points a [r] = [] /\ depolarisations a [r] = []) by (intros a; destruct r; cbn in *; try discriminate; split; reflexivity).
  constructor; auto.
  - intros a. rewrite si_data0, points_app. destruct (P a) as [-> _]. now rewrite app_nil_r.
  - intros a. rewrite si_dpol0, depol_app. destruct (P a) as [_ ->]. now rewrite app_nil_r.
  - intros a. rewrite si_angles0. split; intros (q & Hq & Ha); exists q; (split; [|exact Ha]).
    + apply in_or_app. now left.
    + apply in_app_or in Hq as [Hq|[<-|[]]]; [exact Hq|congruence].
  - rewrite si_units0, in_cm_app. destruct r; cbn; try reflexivity. exfalso. now apply (Hu cm).
Qed.
Lemma state_unit e rs (c : bool) : state_is e rs ->
  state_is (mkEll (if c then "1/cm" else "nm") (angles e) (data e) (dpol e)) (rs ++ [RUnit c]).
Proof.
  intros []. constructor; cbn; auto.
  - intros a. rewrite si_data0, points_app. cbn. now rewrite app_nil_r.
  - intros a. rewrite si_dpol0, depol_app. cbn. now rewrite app_nil_r.
  - intros a. rewrite si_angles0. split; intros (q & Hq & Ha); exists q; (split; [|exact Ha]).
    + apply in_or_app. now left.
    + apply in_app_or in Hq as [Hq|[<-|[]]]; [exact Hq|discriminate].
  - rewrite in_cm_app. destruct c; reflexivity.
Qed.
(** Angles are registered when first seen. *)
Lemma seen_spec e rs k : state_is e rs ->
  let e1 := seen k e in
  (forall a, In a (angles e1) <-> a = k \/ In a (angles e)) /\ NoDup (angles e1) /\ map fst (data e1) = angles e1 /\ units e1 = units e /\
  (forall a, aget a (data e1) = if in_dec Req_EM_T a (angles e1) then Some (points a rs) else None) /\
  (forall a, aget a (dpol e1) = if in_dec Req_EM_T a (angles e1) then Some (depolarisations a rs) else None).
Proof.
  intros [] e1. unfold e1, seen. destruct (aget k (data e)) eqn:E.
  - assert (In k (angles e)) by (rewrite <- si_keys0; apply aget_in; rewrite E; discriminate).
    repeat split; auto. intros [->|]; auto.
  - assert (NI : ~ In k (angles e)) by (rewrite <- si_keys0; intros Q; apply aget_in in Q; congruence).
    assert (NR : forall r, In r rs -> angle_of r <> Some k).
    { intros r Hr Ha. apply NI. apply si_angles0. now exists r. }
    destruct (none_points k rs NR) as [P1 P2].
    split; [|split; [|split; [|split; [|split]]]]; cbn.
    + intros a. rewrite in_app_iff. cbn. intuition.
    + apply NoDup_rev in si_nodup0. rewrite <- (rev_involutive (angles e ++ [k])). apply NoDup_rev. rewrite rev_app_distr. cbn. constructor; [|exact si_nodup0].
      now rewrite <- in_rev.
    + rewrite map_app, si_keys0. reflexivity.
    + reflexivity.
    + intros a. rewrite aget_app, si_data0. cbn. destruct (in_dec Req_EM_T a (angles e)) as [i|n], (in_dec Req_EM_T a (angles e ++ [k])) as [j|m]; try reflexivity.
      * exfalso. apply m. apply in_or_app. now left.
      * apply in_app_or in j as [j|[->|[]]]; [contradiction|]. rewrite P1. now destruct (Req_EM_T a a).
      * destruct (Req_EM_T k a) as [->|]; [|reflexivity]. exfalso. apply m. apply in_or_app. right. now left.
    + intros a. rewrite aget_app, si_dpol0. cbn. destruct (in_dec Req_EM_T a (angles e)) as [i|n], (in_dec Req_EM_T a (angles e ++ [k])) as [j|m]; try reflexivity.
      * exfalso. apply m. apply in_or_app. now left.
      * apply in_app_or in j as [j|[->|[]]]; [contradiction|]. rewrite P2. now destruct (Req_EM_T a a).
      * destruct (Req_EM_T k a) as [->|]; [|reflexivity]. exfalso. apply m. apply in_or_app. right. now left.
Qed.
Lemma angles_snoc rs r k (L L1 : list R) : angle_of r = Some k -> (forall a, In a L1 <-> a = k \/ In a L) ->
  (forall a, In a L <-> exists q, In q rs /\ angle_of q = Some a) ->
  forall a, In a L1 <-> exists q, In q (rs ++ [r]) /\ angle_of q = Some a.
Proof.
  intros Hr H1 H a. rewrite H1, H. split.
  - intros [->|(q & Hq & Ha)]; [exists r|exists q]; (split; [apply in_or_app|assumption]); [right; now left|now left].
  - intros (q & Hq & Ha). apply in_app_or in Hq as [Hq|[<-|[]]]; [right; now exists q|left; congruence].
Qed.
Lemma state_meas e rs k wl psi delta epsi edelta : state_is e rs ->
  state_is (add_data (seen k e) k [wl; psi; epsi; delta; edelta]) (rs ++ [RMeas k wl psi delta epsi edelta]).
Proof.
  intros HS. destruct (seen_spec e rs k HS) as (A1 & A2 & A3 & A4 & A5 & A6). set (e1 := seen k e) in *. clearbody e1. destruct HS.
  assert (Hk : aget k (data e1) = Some (points k rs)).
  { rewrite A5. destruct (in_dec Req_EM_T k (angles e1)) as [|n]; [reflexivity|]. exfalso. apply n. apply A1. now left. }
  unfold add_data, add_row. rewrite Hk. constructor; cbn; auto.
  - intros a. rewrite aget_aput, points_app, A5. cbn. destruct (Req_EM_T k a) as [<-|].
    + destruct (in_dec Req_EM_T k (angles e1)) as [|n]; [reflexivity|]. exfalso. apply n. apply A1. now left.
    + now rewrite app_nil_r.
  - intros a. rewrite A6, depol_app. cbn. now rewrite app_nil_r.
  - rewrite aput_keys; [exact A3|congruence].
  - eapply angles_snoc; [reflexivity|exact A1|exact si_angles0].
  - rewrite A4, si_units0, in_cm_app. reflexivity.
Qed.
Lemma state_dpol e rs k wl d ed : state_is e rs ->
  state_is (add_dpol (seen k e) k [wl; d; ed]) (rs ++ [RDpol k wl d ed]).
Proof.
  intros HS. destruct (seen_spec e rs k HS) as (A1 & A2 & A3 & A4 & A5 & A6). set (e1 := seen k e) in *. clearbody e1. destruct HS.
  assert (Hk : aget k (dpol e1) = Some (depolarisations k rs)).
  { rewrite A6. destruct (in_dec Req_EM_T k (angles e1)) as [|n]; [reflexivity|]. exfalso. apply n. apply A1. now left. }
  unfold add_dpol, add_row. rewrite Hk. constructor; cbn; auto.
  - intros a. rewrite A5, points_app. cbn. now rewrite app_nil_r.
  - intros a. rewrite aget_aput, depol_app, A6. cbn. destruct (Req_EM_T k a) as [<-|].
    + destruct (in_dec Req_EM_T k (angles e1)) as [|n]; [reflexivity|]. exfalso. apply n. apply A1. now left.
    + now rewrite app_nil_r.
  - eapply angles_snoc; [reflexivity|exact A1|exact si_angles0].
  - rewrite A4, si_units0, in_cm_app. reflexivity.
Qed.
Lemma digit_not t : starts_digit t = true -> t <> "nm"%string /\ t <> "E"%string /\ t <> "dpolE"%string.
Proof. intros H. repeat split; intros ->; discriminate H. Qed.
Lemma line_state float e rs l r : state_is e rs -> writes float l r -> exists e', load_line float e l = Ok e' /\ state_is e' (rs ++ [r]).
Proof.
  intros HS HW. destruct HW.
  - eexists. split; [reflexivity|]. now apply (state_unit e rs false).
  - eexists. split; [reflexivity|]. now apply (state_unit e rs true).
  - eexists. split; [|apply state_meas; exact HS]. unfold load_line. destruct (digit_not tw H) as (N & _ & _).
    rewrite (proj2 (String.eqb_neq _ _) N), (proj2 (String.eqb_neq _ _) H0), H. unfold data_row, tok. cbn. rewrite H1, H2, H3, H4, H5, H6. reflexivity.
  - eexists. split; [|apply state_meas; exact HS]. unfold load_line, data_row, tok. cbn. rewrite H, H0, H1, H2, H3, H4. reflexivity.
  - eexists. split; [|apply state_dpol; exact HS]. unfold load_line, dpol_row, tok. cbn. rewrite H, H0, H1, H2. reflexivity.
  - exists e. split.
    + unfold load_line. rewrite (proj2 (String.eqb_neq _ _) H0), H, (proj2 (String.eqb_neq _ _) H1), (proj2 (String.eqb_neq _ _) H2).
      destruct (String.eqb_spec t "1/cm") as [->|]; [discriminate H|]. reflexivity.
    + apply state_other; [exact HS|reflexivity|discriminate].
Qed.
Lemma lines_state float ls : forall e rs qs, state_is e rs -> Forall2 (writes float) ls qs ->
  exists e', load_lines float e ls = Ok e' /\ state_is e' (rs ++ qs).
Proof.
  induction ls as [|l ls IH]; intros e rs qs HS HF; inversion HF as [|? q ? qs' HW HF' E1 E2]; subst.
  - exists e. split; [reflexivity|]. now rewrite app_nil_r.
  - destruct (line_state float e rs l q HS HW) as (e1 & H1 & HS1). destruct (IH e1 _ qs' HS1 HF') as (e2 & H2 & HS2).
    exists e2. cbn [load_lines]. rewrite H1. cbn [bindR]. split; [exact H2|]. rewrite <- app_assoc in HS2. exact HS2.
Qed.
Lemma convert_um u cm p : String.eqb u "1/cm" = cm -> convert u p = to_um cm p.
Proof. intros <-. reflexivity. Qed.
Lemma convert_all_spec u l : (forall kr, In kr l -> snd kr <> []) ->
  exists d, convert_all u l = Ok d /\ map fst d = map fst l /\ forall a, aget a d = option_map (map (convert u)) (aget a l).
Proof.
  induction l as [|[k rows] l IH]; intros H; cbn.
  - exists []. repeat split.
  - destruct IH as (d & E & E1 & E2); [intros kr Hk; apply H; now right|]. specialize (H _ (or_introl eq_refl)). cbn in H.
    destruct rows as [|row rows]; [congruence|]. rewrite E. cbn [bindR]. eexists. split; [reflexivity|]. cbn. split; [now rewrite E1|].
    intros a. destruct (Req_EM_T k a); [reflexivity|apply E2].
Qed.
Lemma convert_all_empty u l : (exists k, aget k l = Some []) -> NoDup (map fst l) -> convert_all u l = Err IndexError.
Proof.
  induction l as [|[a rows] l IH]; intros [k Hk] HN; cbn in *; [discriminate|]. inversion HN as [|? ? N1 N2]; subst.
  destruct rows as [|row rows]; [reflexivity|]. destruct (Req_EM_T a k) as [->|]; [discriminate|]. rewrite IH; [reflexivity|now exists k|exact N2].
Qed.
Lemma aget_of_in {V} (l : list (R * V)) k v : NoDup (map fst l) -> In (k, v) l -> aget k l = Some v.
Proof.
  induction l as [|[a w] l IH]; cbn; intros HN HI; [destruct HI|]. inversion HN as [|? ? N1 N2]; subst. destruct HI as [Q|HI].
  - injection Q as -> ->. now destruct (Req_EM_T k k).
  - destruct (Req_EM_T a k) as [->|]; [|auto]. exfalso. apply N1. apply in_map_iff. now exists (k, v).
Qed.

(** * Theorems *)
(** ** Loading *)
(** A file can be loaded if every angle in it has a point; the data of every angle are then its points in the
    order of the file, with the wavelengths in micrometres, and every angle is there once. *)
Theorem C183_load : forall float h1 h2 ls rs,
  Forall2 (writes float) ls rs ->
  (forall r a, In r rs -> angle_of r = Some a -> points a rs <> []) ->
  exists e, load float (h1 :: h2 :: ls) = Ok e /\ units e = "um"%string /\ NoDup (angles e) /\
  (forall a, In a (angles e) <-> points a rs <> []) /\
  (forall a, aget a (data e) = match points a rs with [] => None | ps => Some (map (to_um (in_cm false rs)) ps) end) /\
  (forall a, In a (angles e) -> aget a (dpol e) = Some (depolarisations a rs)).
Proof.
  intros float h1 h2 ls rs HF HP.
  assert (HS0 : state_is (mkEll "" [] [] []) []).
  { constructor; cbn; auto; try constructor; try (intros a; destruct (in_dec Req_EM_T a []); [contradiction|reflexivity]).
    - intros []. 
    - intros (r & [] & _). }
  destruct (lines_state float ls _ [] rs HS0 HF) as (e & HL & HS). cbn [app] in HS. destruct HS.
  assert (HPA : forall a, In a (angles e) <-> points a rs <> []).
  { intros a. rewrite si_angles0. split; [intros (r & Hr & Ha); now apply (HP r)|]. intros HN.
    destruct (in_dec Req_EM_T a (angles e)) as [i|n]; [now apply si_angles0|]. exfalso. apply HN. apply none_points.
    intros r Hr Ha. apply n. apply si_angles0. now exists r. }
  destruct (convert_all_spec (units e) (data e)) as (d & HD & HDk & HDa).
  { intros [k rows] Hk. cbn. assert (HG : aget k (data e) = Some rows) by (apply aget_of_in; [now rewrite si_keys0|exact Hk]).
    rewrite si_data0 in HG. destruct (in_dec Req_EM_T k (angles e)) as [i|]; [|discriminate]. injection HG as <-. now apply HPA. }
  unfold load. rewrite HL. cbn [bindR]. rewrite HD. cbn [bindR]. eexists. split; [reflexivity|]. cbn.
  split; [reflexivity|]. split; [exact si_nodup0|]. split; [exact HPA|]. split.
  - intros a. rewrite HDa, si_data0. destruct (in_dec Req_EM_T a (angles e)) as [i|n].
    + apply HPA in i. destruct (points a rs) as [|p ps]; [congruence|]. cbn [option_map]. rewrite (map_ext (convert (units e)) (to_um (in_cm false rs))); [reflexivity|]. intros q. now apply convert_um.
    + destruct (points a rs) eqn:E; [reflexivity|]. exfalso. apply n. apply HPA. rewrite E. discriminate.
  - intros a Ha. rewrite si_dpol0. now destruct (in_dec Req_EM_T a (angles e)).
Qed.
(** A depolarisation at an angle without points makes the file unreadable. *)
Theorem C183_only_dpol : forall float h1 h2 ls rs a,
  Forall2 (writes float) ls rs -> (exists r, In r rs /\ angle_of r = Some a) -> points a rs = [] ->
  load float (h1 :: h2 :: ls) = Err IndexError.
Proof.
  intros float h1 h2 ls rs a HF HR HP.
  assert (HS0 : state_is (mkEll "" [] [] []) []).
  { constructor; cbn; auto; try constructor; try (intros b; destruct (in_dec Req_EM_T b []); [contradiction|reflexivity]).
    - intros []. 
    - intros (r & [] & _). }
  destruct (lines_state float ls _ [] rs HS0 HF) as (e & HL & HS). cbn [app] in HS. destruct HS.
  unfold load. rewrite HL. cbn [bindR]. rewrite convert_all_empty; [reflexivity| |now rewrite si_keys0].
  exists a. rewrite si_data0, HP. destruct (in_dec Req_EM_T a (angles e)) as [|n]; [reflexivity|]. exfalso. apply n. now apply si_angles0.
Qed.
(** So does an empty line anywhere behind the first two. *)
Theorem C183_blank : forall float h1 h2 ls, In [] ls -> exists x, load float (h1 :: h2 :: ls) = Err x.
Proof.
  intros float h1 h2 ls H. assert (Q : forall e, exists x, load_lines float e ls = Err x).
  { induction ls as [|l ls IH]; [destruct H|]. intros e. cbn [load_lines]. destruct H as [->|H]; [exists IndexError; reflexivity|].
    destruct (load_line float e l) as [e1|x]; cbn [bindR]; [now apply IH|now exists x]. }
  destruct (Q (mkEll "" [] [] [])) as [x Hx]. exists x. unfold load. now rewrite Hx.
Qed.

(** ** Appending *)
Lemma insert_by_perm {A} (f : A -> R) a l : Permutation (a :: l) (insert_by f a l).
Proof.
  induction l as [|b l IH]; cbn; [reflexivity|]. destruct (Rle_dec (f a) (f b)); [reflexivity|].
  rewrite perm_swap. now constructor.
Qed.
Lemma sort_by_perm {A} (f : A -> R) l : Permutation l (sort_by f l).
Proof. induction l as [|a l IH]; cbn; [reflexivity|]. rewrite <- insert_by_perm. now constructor. Qed.
Lemma insert_by_sorted {A} (f : A -> R) a l : StronglySorted (fun x y => f x <= f y) l -> StronglySorted (fun x y => f x <= f y) (insert_by f a l).
Proof.
  induction l as [|b l IH]; cbn; intros H; [constructor; constructor|]. inversion H as [|? ? H1 H2]; subst. destruct (Rle_dec (f a) (f b)) as [q|q].
  - constructor; [exact H|]. constructor; [exact q|]. eapply Forall_impl; [|exact H2]. cbn. intros. lra.
  - constructor; [now apply IH|]. rewrite Forall_forall in *. intros x Hx. apply (Permutation_in _ (Permutation_sym (insert_by_perm f a l))) in Hx.
    destruct Hx as [<-|Hx]; [lra|auto].
Qed.
Lemma sort_by_sorted {A} (f : A -> R) l : StronglySorted (fun x y => f x <= f y) (sort_by f l).
Proof. induction l as [|a l IH]; cbn; [constructor|]. now apply insert_by_sorted. Qed.
Lemma append_key_frame new kr e a : a <> fst kr -> aget a (data (append_key new e kr)) = aget a (data e) /\ aget a (dpol (append_key new e kr)) = aget a (dpol e).
Proof.
  destruct kr as [k rows]. cbn. intros H. destruct (aget k (data e)); cbn; rewrite !aget_aput; destruct (Req_EM_T k a); try congruence; split; reflexivity.
Qed.
Lemma append_frame new l : forall e a, ~ In a (map fst l) ->
  aget a (data (fold_left (append_key new) l e)) = aget a (data e) /\ aget a (dpol (fold_left (append_key new) l e)) = aget a (dpol e).
Proof.
  induction l as [|kr l IH]; intros e a H; cbn; [split; reflexivity|]. cbn in H.
  destruct (IH (append_key new e kr) a) as [-> ->]; [tauto|]. apply append_key_frame. intros ->. tauto.
Qed.
Lemma append_at new l : forall e a rows, NoDup (map fst l) -> aget a l = Some rows ->
  let e' := fold_left (append_key new) l e in
  aget a (data e') = Some (match aget a (data e) with None => rows | Some old => sort_by wl_of (rows ++ old) end) /\
  aget a (dpol e') = Some (match aget a (data e) with None => rows_of a (dpol new) | Some _ => merge_dpol (rows_of a (dpol new)) (rows_of a (dpol e)) end).
Proof.
  induction l as [|[k r] l IH]; intros e a rows HN HA e'; cbn in HA; [discriminate|]. inversion HN as [|? ? N1 N2]; subst.
  unfold e'. cbn [fold_left]. destruct (Req_EM_T k a) as [->|NE].
  - injection HA as ->. destruct (append_frame new l (append_key new e (a, rows)) a N1) as [-> ->]. cbn.
    destruct (aget a (data e)); cbn; rewrite !aget_aput; destruct (Req_EM_T a a); try congruence; split; reflexivity.
  - destruct (IH (append_key new e (k, r)) a rows N2 HA) as [-> ->].
    destruct (append_key_frame new (k, r) e a) as [Q1 Q2]; [cbn; congruence|]. unfold rows_of. rewrite Q1, Q2. split; reflexivity.
Qed.
(** Afterwards every angle has the points of both, in the order of the wavelengths if it was in both. *)
Theorem C183_append : forall e new, NoDup (map fst (data new)) -> forall a,
  match aget a (data (append_data e new)) with
  | None => aget a (data e) = None /\ aget a (data new) = None
  | Some ps => Permutation ps (rows_of a (data new) ++ rows_of a (data e)) /\
      (aget a (data e) <> None -> aget a (data new) <> None -> StronglySorted (fun p q => wl_of p <= wl_of q) ps)
  end /\ (aget a (data new) = None -> aget a (data (append_data e new)) = aget a (data e)).
Proof.
  intros e new HN a. unfold append_data. destruct (aget a (data new)) as [rows|] eqn:E.
  - destruct (append_at new (data new) e a rows HN E) as [-> _]. split; [|discriminate].
    assert (RN : rows_of a (data new) = rows) by (unfold rows_of; now rewrite E). rewrite RN. unfold rows_of.
    destruct (aget a (data e)); split.
    + symmetry. apply sort_by_perm.
    + intros _ _. apply sort_by_sorted.
    + now rewrite app_nil_r.
    + congruence.
  - assert (NI : ~ In a (map fst (data new))) by (intros Q; apply aget_in in Q; congruence).
    destruct (append_frame new (data new) e a NI) as [-> _]. split; [|reflexivity]. unfold rows_of. rewrite E. destruct (aget a (data e)); split; auto; congruence.
Qed.

(** * Cases, and what goes wrong *)
(** Whole numbers, for the examples *)
Fixpoint digits (acc : Z) (s : string) : option Z :=
  match s with
  | EmptyString => Some acc
  | String c r => let n := nat_of_ascii c in if Nat.leb 48 n && Nat.leb n 57 then digits (10 * acc + Z.of_nat (n - 48)) r else None
  end.
Definition whole (s : string) : option R := match s with EmptyString => None | _ => option_map IZR (digits 0 s) end.
Open Scope string_scope.
Definition lines1 : list (list string) :=
  [["nm"]; ["500"; "70"; "30"; "150"; "1"; "2"]; ["E"; "600"; "75"; "31"; "151"; "1"; "2"]; ["dpolE"; "500"; "70"; "3"; "1"]; ["400"; "70"; "32"; "152"; "1"; "2"]].
Definition records1 : list record :=
  [RUnit false; RMeas 70 500 30 150 1 2; RMeas 75 600 31 151 1 2; RDpol 70 500 3 1; RMeas 70 400 32 152 1 2].
Close Scope string_scope.
Lemma lines1_ok : Forall2 (writes whole) lines1 records1.
Proof.
  constructor; [apply w_nm|]. constructor; [apply w_meas; try reflexivity; discriminate|]. constructor; [apply w_E; reflexivity|].
  constructor; [apply w_dpol; reflexivity|]. constructor; [apply w_meas; try reflexivity; discriminate|]. constructor.
Qed.
Ltac reqs := repeat match goal with |- context [Req_EM_T ?a ?b] => destruct (Req_EM_T a b); try lra end.
Example C183_load_ex : (forall r a, In r records1 -> angle_of r = Some a -> points a records1 <> []) /\
  points 70 records1 = [[500; 30; 1; 150; 2]; [400; 32; 1; 152; 2]] /\ depolarisations 70 records1 = [[500; 3; 1]].
Proof.
  split; [|split; cbn; reqs; reflexivity].
  intros r a [<-|[<-|[<-|[<-|[<-|[]]]]]]; cbn; try discriminate; intros [= <-]; reqs; discriminate.
Qed.
(** The wavelengths of depolarisations stay in the unit of the file. *)
Theorem C183_dpol_units_refuted : exists float ls e, load float ([] :: [] :: ls) = Ok e /\ units e = "um"%string /\
  aget 70 (dpol e) = Some [[500; 3; 1]] /\ (exists ps, aget 70 (data e) = Some ps /\ wl_of (hd [] ps) = 500 / 1000).
Proof.
  destruct (C183_load whole [] [] lines1 records1 lines1_ok (proj1 C183_load_ex)) as (e & H & Hu & _ & HA & HD & HP).
  exists whole, lines1, e. split; [exact H|]. split; [exact Hu|]. destruct C183_load_ex as (_ & E1 & E2). split.
  - rewrite HP; [now rewrite E2|]. apply HA. rewrite E1. discriminate.
  - rewrite HD, E1. eexists. split; [reflexivity|]. reflexivity.
Qed.
(** Angles that are only in the appended file are not in the list of angles, which the fit uses. *)
Theorem C183_angles_refuted : exists e new a, aget a (data new) <> None /\ In a (angles new) /\
  aget a (data (append_data e new)) = aget a (data new) /\ ~ In a (angles (append_data e new)).
Proof.
  exists (mkEll "um" [70] [(70, [[1; 30; 1; 150; 2]])] [(70, [])]), (mkEll "um" [75] [(75, [[1; 31; 1; 151; 2]])] [(75, [])]), 75.
  cbn. reqs. cbn. reqs. repeat split; try congruence; auto. intros [Q|[]]. lra.
Qed.
(** The depolarisations of an angle in both files become rows with permuted entries. *)
Theorem C183_dpol_mixed_refuted : exists e new a r, In r (rows_of a (dpol e)) /\
  (forall q, In q (rows_of a (dpol (append_data e new))) -> wl_of q <> wl_of r) /\
  rows_of a (dpol (append_data e new)) = [[1; 3; 500]; [2; 4; 600]].
Proof.
  exists (mkEll "um" [70] [(70, [[1; 30; 1; 150; 2]])] [(70, [[600; 4; 2]])]), (mkEll "um" [70] [(70, [[2; 31; 1; 151; 2]])] [(70, [[500; 3; 1]])]), 70, [600; 4; 2].
  assert (E : rows_of 70 (dpol (append_data (mkEll "um" [70] [(70, [[1; 30; 1; 150; 2]])] [(70, [[600; 4; 2]])]) (mkEll "um" [70] [(70, [[2; 31; 1; 151; 2]])] [(70, [[500; 3; 1]])]))) = [[1; 3; 500]; [2; 4; 600]]).
  { cbn. unfold rows_of. cbn. reqs. cbn. reqs. cbn. reqs. unfold argsort. cbn.
    repeat match goal with |- context [Rle_dec ?a ?b] => destruct (Rle_dec a b); try lra; cbn end. reflexivity. }
  rewrite E. split; [unfold rows_of; cbn; reqs; now left|]. split; [|reflexivity].
  intros q [<-|[<-|[]]]; unfold wl_of; cbn; lra.
Qed.
Example C183_append_ex : rows_of 70 (data (append_data (mkEll "um" [70] [(70, [[1; 30; 1; 150; 2]])] [(70, [])]) (mkEll "um" [70] [(70, [[2; 31; 1; 151; 2]])] [(70, [])])))
  = [[1; 30; 1; 150; 2]; [2; 31; 1; 151; 2]].
Proof.
  cbn. reqs. cbn. unfold rows_of. cbn. reqs. unfold wl_of. cbn.
  repeat match goal with |- context [Rle_dec ?a ?b] => destruct (Rle_dec a b); try lra; cbn end. reflexivity.
Qed.
Example C183_only_dpol_ex : Forall2 (writes whole) [["dpolE"; "500"; "70"; "3"; "1"]%string] [RDpol 70 500 3 1] /\ points 70 [RDpol 70 500 3 1] = [].
Proof. split; [|reflexivity]. constructor; [apply w_dpol; reflexivity|constructor]. Qed.

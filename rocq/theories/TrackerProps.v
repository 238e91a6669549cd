(** Property C59: the bibliography. *)
From Coq Require Import String List Bool Arith Lia.
From Verif Require Import Common TrackerModel.
Import ListNotations.
Open Scope string_scope.
Open Scope list_scope.

(** * Specification: walk over the history, remembering whether tracking was
    switched on, and keep the first reference given by each calling function. *)
Fixpoint first_refs (on : bool) (seen : list string) (h : list top) : list (string * string) :=
  match h with
  | [] => []
  | TTrack _ :: h' => first_refs true seen h'
  | TCall c _ r :: h' =>
      if on && visible c && negb (existsb (String.eqb (ident c)) seen)
      then (ident c, r) :: first_refs on (ident c :: seen) h'
      else first_refs on seen h'
  end.

Lemma existsb_mem x l : existsb (String.eqb x) l = true <-> In x l.
Proof.
  rewrite existsb_exists. split.
  - intros (y & H & E). apply String.eqb_eq in E. now subst.
  - intros H. exists x. split; [assumption|apply String.eqb_refl].
Qed.

Lemma existsb_same x l l' : (forall y, In y l <-> In y l') ->
  existsb (String.eqb x) l = existsb (String.eqb x) l'.
Proof.
  intros H. apply eq_true_iff_eq. rewrite !existsb_mem. apply H.
Qed.

Lemma first_refs_same on s s' h : (forall y, In y s <-> In y s') ->
  first_refs on s h = first_refs on s' h.
Proof.
  revert on s s'. induction h as [|[c p r|b] h IH]; intros on s s' H; simpl; [reflexivity| |].
  - rewrite (existsb_same _ s s' H). destruct (on && visible c && _).
    + f_equal. apply IH. intros y. simpl. rewrite H. tauto.
    + now apply IH.
  - now apply IH.
Qed.

Lemma index_of_app x l l' : In x l -> index_of x (l ++ l') = index_of x l.
Proof.
  induction l as [|y l IH]; simpl; [tauto|]. intros H.
  destruct (String.eqb_spec y x); [reflexivity|]. f_equal. apply IH. tauto.
Qed.

Lemma index_of_nth x l : In x l -> nth_error l (index_of x l) = Some x.
Proof.
  induction l as [|y l IH]; simpl; [tauto|]. intros H.
  destruct (String.eqb_spec y x); [subst; reflexivity|]. simpl. apply IH. tauto.
Qed.

Lemma run_refs t h :
  bibliography_id (t_run t h) =
    bibliography_id t ++ map fst (first_refs (track_references t) (bibliography_id t) h) /\
  bibliography (t_run t h) =
    bibliography t ++ map snd (first_refs (track_references t) (bibliography_id t) h).
Proof.
  revert t. induction h as [|x h IH]; intros t; simpl.
  - now rewrite !app_nil_r.
  - destruct (IH (t_step t x)) as [H1 H2]. unfold t_run in *. simpl. rewrite H1, H2. clear IH H1 H2.
    destruct x as [c p r|b]; simpl; [|split; reflexivity].
    unfold science_reference. destruct (track_references t) eqn:E; simpl.
    2:{ rewrite E. split; reflexivity. }
    destruct (visible c); simpl; [|rewrite E; split; reflexivity].
    destruct (existsb (String.eqb (ident c)) (bibliography_id t)) eqn:Ex; simpl;
      rewrite ?E; [split; reflexivity|].
    rewrite <- !app_assoc. simpl.
    rewrite (first_refs_same true (bibliography_id t ++ [ident c]) (ident c :: bibliography_id t)).
    + split; reflexivity.
    + intros y. rewrite in_app_iff. simpl. tauto.
Qed.

Lemma first_refs_nodup on s h :
  NoDup (map fst (first_refs on s h)) /\
  forall y, In y (map fst (first_refs on s h)) -> ~ In y s.
Proof.
  revert on s. induction h as [|[c p r|b] h IH]; intros on s; simpl.
  - split; [constructor|tauto].
  - destruct (on && visible c && _) eqn:E; simpl; [|apply IH].
    destruct (IH on (ident c :: s)) as [H1 H2]. apply andb_true_iff in E as [_ E].
    apply negb_true_iff in E. split.
    + constructor; [|assumption]. intros H. apply H2 in H. apply H. now left.
    + intros y [<-|Hy].
      * intros Hin. apply existsb_mem in Hin. congruence.
      * intros Hin. apply H2 in Hy. apply Hy. now right.
  - apply IH.
Qed.

(** For every history of calls, starting from an empty bibliography: the
    bibliography is the list, in order of first appearance, of the reference of
    the first tracked call made by each calling function; every function appears
    once; every recorded line points to the bibliography entry of its function;
    and as long as tracking was never switched on nothing at all is recorded.
    Missing for the full property: entries are keyed by calling function and not
    by reference (refuted below). *)
Definition calls_of (h : list top) : list caller :=
  flat_map (fun x => match x with TCall c _ _ => [c] | TTrack _ => [] end) h.

Lemma run_tracking t h :
  (forall cr p n, In (cr, p, n) (science_tracking (t_run t h)) ->
     In (cr, p, n) (science_tracking t) \/
     exists c, In c (calls_of h) /\ call_record c = cr /\
       1 <= n /\ nth_error (bibliography_id (t_run t h)) (n - 1) = Some (ident c)).
Proof.
  revert t. induction h as [|x h IH]; intros t cr p n Hin; simpl in *.
  - now left.
  - unfold t_run in *. simpl in *. destruct (IH _ _ _ _ Hin) as [H|(c & Hc & H)].
    2:{ right. exists c. split; [|exact H]. destruct x; [now right|exact Hc]. }
    destruct x as [c p' r|b]; simpl in H; [|now left].
    unfold science_reference in H. destruct (track_references t) eqn:E; simpl in H; [|now left].
    destruct (visible c) eqn:V; simpl in H; [|now left].
    destruct (track_each t || _) eqn:Et; simpl in H; [|now left].
    apply in_app_iff in H as [H|[H|[]]]; [now left|].
    right. exists c. split; [now left|]. injection H as <- <- <-.
    split; [reflexivity|]. split; [lia|]. rewrite Nat.add_sub.
    destruct (run_refs (t_step t (TCall c p' r)) h) as [R1 _]. unfold t_run in R1. rewrite R1.
    simpl. unfold science_reference. rewrite E, V. simpl.
    set (ids := if negb (existsb (String.eqb (ident c)) (bibliography_id t))
                then bibliography_id t ++ [ident c] else bibliography_id t).
    assert (In (ident c) ids) as Hi.
    { unfold ids. destruct (existsb (String.eqb (ident c)) (bibliography_id t)) eqn:Ex; simpl.
      - now apply existsb_mem. - apply in_or_app. right. now left. }
    rewrite nth_error_app1 by (apply nth_error_Some; rewrite index_of_nth by assumption; discriminate).
    now apply index_of_nth.
Qed.

Theorem C59_citations_partial :
  forall h,
    let t := t_run tracker0 h in
    bibliography_id t = map fst (first_refs false [] h) /\
    bibliography t = map snd (first_refs false [] h) /\
    NoDup (bibliography_id t) /\
    (forall cr p n, In (cr, p, n) (science_tracking t) ->
       exists c, In c (calls_of h) /\ call_record c = cr /\
         1 <= n /\ nth_error (bibliography_id t) (n - 1) = Some (ident c)) /\
    ((forall b, ~ In (TTrack b) h) ->
       bibliography t = [] /\ bibliography_id t = [] /\ science_tracking t = []).
Proof.
  intros h t. destruct (run_refs tracker0 h) as [H1 H2]. simpl in H1, H2. fold t in H1, H2.
  split; [exact H1|]. split; [exact H2|]. split; [rewrite H1; apply first_refs_nodup|].
  split.
  { intros cr p n Hin. destruct (run_tracking tracker0 h cr p n Hin) as [[]|H]. exact H. }
  intros Hno. unfold t. clear H1 H2 t.
  assert (forall h t, track_references t = false -> (forall b, ~ In (TTrack b) h) -> t_run t h = t) as G.
  { clear. induction h as [|[c p r|b] h IH]; intros t Ht Hno; [reflexivity| |].
    - unfold t_run in *. simpl. unfold science_reference. rewrite Ht. simpl. apply IH; [assumption|].
      intros b Hb. apply (Hno b). now right.
    - exfalso. apply (Hno b). now left. }
  rewrite G by (reflexivity || assumption). repeat split.
Qed.
Print Assumptions C59_citations_partial.

Definition exA := mkCaller "strain [1]" "strain(x=1)" true.
Definition exB := mkCaller "mobility [2]" "mobility()" true.
Example C59_case :
  let t := t_run tracker0 [TCall exA "p" "Book"; TTrack true; TCall exB "q" "Paper";
                           TCall exA "p" "Book"; TCall exB "q" "Paper"] in
  bibliography t = ["Paper"; "Book"] /\ map snd (science_tracking t) = [1; 2; 1].
Proof. split; reflexivity. Qed.

(** With tracking on, two functions citing the same reference put it twice in
    the bibliography, and a function citing two references loses the second. *)
Theorem C59_citations_refuted :
  (exists h, bibliography (t_run tracker0 (TTrack false :: h)) = ["Book"; "Book"]) /\
  (exists h c p r, In (TCall c p r) h /\ visible c = true /\
     ~ In r (bibliography (t_run tracker0 (TTrack true :: h)))).
Proof.
  split.
  - exists [TCall exA "p" "Book"; TCall exB "q" "Book"]. reflexivity.
  - exists [TCall exA "p" "Book"; TCall exA "q" "Paper"], exA, "q", "Paper".
    split; [right; now left|]. split; [reflexivity|]. simpl. intros [H|[]]. discriminate.
Qed.
Print Assumptions C59_citations_refuted.

(** Properties C17 and C18: the State object and option merging. *)
From Coq Require Import String List Bool Arith Lia.
From Verif Require Import Common StateModel.
Import ListNotations.
Open Scope string_scope.
Open Scope list_scope.

(** * Specification of C17: read the history backwards *)
Section Spec.
Context {A : Type}.

(** The name an operation writes to the dictionary, with the new value
    ([None] for a deletion). *)
Definition writes (x : sop A) : option (string * option A) :=
  match x with
  | SetAttr n v => if existsb (String.eqb n) ["_OrderedDict__root"; "_OrderedDict__map"; "_OrderedDict__hardroot"]
                   then None else Some (n, Some v)
  | SetItem n v => Some (n, Some v)
  | DelItem n => Some (n, None)
  end.

(** The last value written to [k] in a history (given latest first). *)
Fixpoint last_written (hrev : list (sop A)) (k : string) : option A :=
  match hrev with
  | [] => None
  | x :: h =>
      match writes x with
      | Some (n, v) => if String.eqb n k then v else last_written h k
      | None => last_written h k
      end
  end.

(** The keys in order of first insertion since their last deletion (history
    given latest first). *)
Fixpoint keys_in_order (hrev : list (sop A)) : list string :=
  match hrev with
  | [] => []
  | x :: h =>
      let ks := keys_in_order h in
      match writes x with
      | Some (n, Some _) => if in_dec string_dec n ks then ks else ks ++ [n]
      | Some (n, None) => remove string_dec n ks
      | None => ks
      end
  end.
End Spec.

(** * Lemmas *)
Lemma NoDup_snoc {B} (l : list B) x : NoDup l -> ~ In x l -> NoDup (l ++ [x]).
Proof.
  intros H Hx. rewrite <- (rev_involutive (l ++ [x])), (rev_app_distr l). apply NoDup_rev. simpl.
  constructor; [now rewrite <- in_rev|]. now apply NoDup_rev.
Qed.
Section Lemmas.
Context {A : Type}.
Implicit Types (d : od A).

Lemma od_get_set d k v k' :
  od_get (od_set d k v) k' = if String.eqb k k' then Some v else od_get d k'.
Proof.
  induction d as [|[k0 v0] d IH]; simpl.
  - reflexivity.
  - destruct (String.eqb_spec k0 k); subst; simpl.
    + destruct (String.eqb_spec k k'); reflexivity.
    + destruct (String.eqb_spec k0 k'); subst; [|apply IH].
      destruct (String.eqb_spec k k'); subst; congruence.
Qed.

Lemma od_keys_set d k v :
  map fst (od_set d k v) = if in_dec string_dec k (map fst d) then map fst d else map fst d ++ [k].
Proof.
  induction d as [|[k0 v0] d IH]; simpl.
  - reflexivity.
  - destruct (String.eqb_spec k0 k); subst; simpl.
    + destruct (string_dec k k); [reflexivity|congruence].
    + destruct (string_dec k0 k); [congruence|]. rewrite IH.
      destruct (in_dec string_dec k (map fst d)); reflexivity.
Qed.

Lemma od_get_in d k : od_get d k = None <-> ~ In k (map fst d).
Proof.
  induction d as [|[k0 v0] d IH]; simpl.
  - tauto.
  - destruct (String.eqb_spec k0 k); subst.
    + split; [discriminate|]. intros H; exfalso; apply H; now left.
    + rewrite IH. tauto.
Qed.

Lemma od_keys_del d k : NoDup (map fst d) -> map fst (od_del d k) = remove string_dec k (map fst d).
Proof.
  induction d as [|[k0 v0] d IH]; simpl; intros H.
  - reflexivity.
  - inversion H; subst. destruct (String.eqb_spec k0 k); subst.
    + destruct (string_dec k k); [|congruence].
      symmetry. apply notin_remove. assumption.
    + destruct (string_dec k k0); [congruence|]. simpl. f_equal. apply IH. assumption.
Qed.

Lemma od_get_del d k k' : NoDup (map fst d) ->
  od_get (od_del d k) k' = if String.eqb k k' then None else od_get d k'.
Proof.
  induction d as [|[k0 v0] d IH]; simpl; intros H.
  - now destruct (String.eqb k k').
  - inversion H; subst. destruct (String.eqb_spec k0 k); subst.
    + destruct (String.eqb_spec k k'); subst; [|reflexivity]. now apply od_get_in.
    + simpl. rewrite IH by assumption.
      destruct (String.eqb_spec k0 k'); subst; [|reflexivity].
      destruct (String.eqb_spec k k'); subst; congruence.
Qed.

Lemma nodup_keys (hrev : list (sop A)) : NoDup (keys_in_order hrev).
Proof.
  induction hrev as [|x h IH]; simpl; [constructor|].
  destruct (writes x) as [[n [v|]]|].
  - destruct (in_dec string_dec n (keys_in_order h)); [assumption|].
    now apply NoDup_snoc.
  - clear -IH. induction (keys_in_order h) as [|k l IHl]; simpl; [constructor|].
    inversion IH; subst. destruct (string_dec n k); [now apply IHl|].
    constructor; [|now apply IHl]. intros Hin. apply in_remove in Hin. tauto.
  - assumption.
Qed.

Lemma srun_snoc h (x : sop A) : srun (h ++ [x]) = sstep (srun h) x.
Proof. unfold srun. now rewrite fold_left_app. Qed.

Lemma srun_spec (h : list (sop A)) :
  map fst (items (srun h)) = keys_in_order (rev h) /\
  forall k, od_get (items (srun h)) k = last_written (rev h) k.
Proof.
  induction h as [|x h IH] using rev_ind.
  - split; reflexivity.
  - rewrite srun_snoc, rev_app_distr. simpl. destruct IH as [IH1 IH2].
    assert (Hnd : NoDup (map fst (items (srun h)))) by (rewrite IH1; apply nodup_keys).
    assert (Hset : forall n v, map fst (od_set (items (srun h)) n v)
       = if in_dec string_dec n (keys_in_order (rev h)) then keys_in_order (rev h) else keys_in_order (rev h) ++ [n]).
    { intros n v. now rewrite od_keys_set, IH1. }
    destruct x as [n v|n v|n]; simpl.
    + unfold setattr, mem, hidden_names. simpl.
      destruct (_ || _) eqn:E; simpl.
      * split; assumption.
      * split; [apply Hset|]. intros k. rewrite od_get_set, IH2.
        now destruct (String.eqb n k).
    + split; [apply Hset|]. intros k. rewrite od_get_set, IH2.
      now destruct (String.eqb n k).
    + unfold delitem. destruct (od_get (items (srun h)) n) eqn:E; simpl.
      * split; [now rewrite od_keys_del, IH1|]. intros k. rewrite od_get_del, IH2 by assumption.
        now destruct (String.eqb n k).
      * split.
        -- rewrite IH1. symmetry. apply notin_remove. rewrite <- IH1. now apply od_get_in.
        -- intros k. rewrite IH2. destruct (String.eqb_spec n k); subst; [|reflexivity].
           now rewrite <- IH2.
Qed.

Lemma hidden_keys (h : list (sop A)) k :
  mem k hidden_names = false -> od_get (hidden (srun h)) k = None.
Proof.
  intros Hk. induction h as [|x h IH] using rev_ind; [reflexivity|].
  rewrite srun_snoc. destruct x as [n v|n v|n]; simpl.
  - unfold setattr. destruct (mem n hidden_names) eqn:E; simpl; [|assumption].
    rewrite od_get_set. destruct (String.eqb_spec n k); subst; [congruence|assumption].
  - assumption.
  - unfold delitem. destruct (od_get _ n); assumption.
Qed.
End Lemmas.

(** * C17 *)

(** For every history of attribute assignments, item assignments and deletions
    and every name that is not one of the class's own methods nor one of the
    three private names of OrderedDict: attribute and item reads agree, give the
    last written value, and raise KeyError exactly when the last write was a
    deletion or there was none; the keys are in first-insertion order. *)
Theorem C17_state_is_ordered_map :
  forall (A : Type) (methods : list string) (h : list (sop A)) (k : string),
    ~ In k methods ->
    ~ In k ["_OrderedDict__root"; "_OrderedDict__map"; "_OrderedDict__hardroot"] ->
    let s := srun h in
    map fst (items s) = keys_in_order (rev h) /\
    NoDup (map fst (items s)) /\
    match last_written (rev h) k with
    | Some v => getattr methods s k = Ok (Val v) /\ getitem s k = Ok v /\
                hasattr methods s k = Ok true
    | None => getattr methods s k = Err KeyError /\ getitem s k = Err KeyError /\
              hasattr methods s k = Err KeyError
    end.
Proof.
  intros A methods h k Hm Hh s.
  destruct (srun_spec h) as [H1 H2].
  split; [exact H1|]. split; [unfold s; rewrite H1; apply nodup_keys|].
  assert (mem k methods = false) as Em.
  { apply not_true_is_false. intros E. unfold mem in E. apply existsb_exists in E as (x & Hx & E).
    apply String.eqb_eq in E. subst. contradiction. }
  assert (mem k hidden_names = false) as Eh.
  { apply not_true_is_false. intros E. unfold mem in E. apply existsb_exists in E as (x & Hx & E).
    apply String.eqb_eq in E. subst. contradiction. }
  assert (mem k root_names = false) as Er.
  { unfold mem, root_names, hidden_names in *. simpl in *.
    destruct (String.eqb k "_OrderedDict__root"); [discriminate|].
    destruct (String.eqb k "_OrderedDict__map"); [discriminate|reflexivity]. }
  unfold s, hasattr, getattr, getitem. rewrite Em, Er, (hidden_keys h k Eh).
  rewrite H2. destruct (last_written (rev h) k); auto.
Qed.
Print Assumptions C17_state_is_ordered_map.

Example C17_case :
  ~ In "T" ["keys"; "items"; "update"] /\
  let h := [SetAttr "T" 298; SetItem "mpp" 1; SetAttr "T" 300; DelItem "mpp"; SetItem "mpp" 2] in
  last_written (rev h) "T" = Some 300 /\ keys_in_order (rev h) = ["T"; "mpp"] /\
  last_written (rev (h ++ [DelItem "T"])) "T" = None.
Proof. simpl. intuition discriminate. Qed.

(** Names of the class's own methods are the exception: assigning one as an
    attribute stores a key that attribute access never returns. *)
Theorem C17_method_names_shadow :
  forall (A : Type) (methods : list string) (h : list (sop A)) (k : string) (v : A),
    In k methods -> ~ In k ["_OrderedDict__root"; "_OrderedDict__map"; "_OrderedDict__hardroot"] ->
    let s := srun (h ++ [SetAttr k v]) in
    getitem s k = Ok v /\ getattr methods s k = Ok (Method k).
Proof.
  intros A methods h k v Hin Hn s.
  assert (mem k hidden_names = false) as Eh.
  { apply not_true_is_false. intros E. unfold mem in E. apply existsb_exists in E as (x & Hx & E).
    apply String.eqb_eq in E. subst. contradiction. }
  unfold s. rewrite srun_snoc. simpl. unfold setattr. rewrite Eh. unfold getitem, getattr. simpl.
  rewrite od_get_set, String.eqb_refl. split; [reflexivity|].
  assert (mem k methods = true) as ->; [|reflexivity].
  unfold mem. apply existsb_exists. exists k. split; [assumption|apply String.eqb_refl].
Qed.
Print Assumptions C17_method_names_shadow.
Example C17_method_case : In "items" ["keys"; "items"].
Proof. simpl; auto. Qed.

(** * C18 *)

(** The value of [k] in the last dictionary of a list (given latest first) that has it. *)
Fixpoint last_having {A} (lrev : list (od A)) (k : string) : option A :=
  match lrev with
  | [] => None
  | d :: l => match od_get d k with Some v => Some v | None => last_having l k end
  end.

Lemma od_get_update {A} (d e : od A) k :
  NoDup (map fst e) ->
  od_get (od_update d e) k = match od_get e k with Some v => Some v | None => od_get d k end.
Proof.
  unfold od_update. revert d. induction e as [|[k0 v0] e IH]; intros d H; simpl; [reflexivity|].
  inversion H; subst. rewrite IH by assumption. rewrite od_get_set.
  destruct (String.eqb_spec k0 k); subst.
  - destruct (od_get e k) eqn:E; [|reflexivity].
    assert (od_get e k = None) by (now apply od_get_in). congruence.
  - reflexivity.
Qed.

Lemma od_update_keys {A} (d e : od A) : NoDup (map fst d) -> NoDup (map fst (od_update d e)).
Proof.
  unfold od_update. revert d. induction e as [|[k0 v0] e IH]; intros d H; simpl; [assumption|].
  apply IH. rewrite od_keys_set. destruct (in_dec string_dec k0 (map fst d)); [assumption|].
  now apply NoDup_snoc.
Qed.

(** Merging any list of option dictionaries (references into a heap of
    well-formed dictionaries): the result is a new object, for every key it
    holds the value of the last argument that has the key and no other key,
    and every existing object, the arguments included, is unchanged. *)
Theorem C18_merge_last_wins :
  forall (A : Type) (h : heap A) (args : list nat),
    (forall d, In d h -> NoDup (map fst d)) ->
    (forall i, In i args -> i < length h) ->
    let '(h', r) := merge_dicts h args in
    ~ In r args /\
    (forall i, i < length h -> nth_error h' i = nth_error h i) /\
    exists d, nth_error h' r = Some d /\ NoDup (map fst d) /\
      forall k, od_get d k = last_having (rev (map (fun i => nth i h []) args)) k.
Proof.
  intros A h args Hwf Hargs. unfold merge_dicts.
  split; [intros Hin; apply Hargs in Hin; lia|].
  split; [intros i Hi; now rewrite nth_error_app1|].
  exists (fold_left (fun r i => od_update r (nth i h [])) args []).
  split; [rewrite nth_error_app2 by lia; now rewrite Nat.sub_diag|].
  revert Hargs. induction args as [|i args IH] using rev_ind; intros Hargs.
  - split; [constructor|]. reflexivity.
  - rewrite fold_left_app, map_app, rev_app_distr. simpl.
    destruct IH as [IH1 IH2]. { intros j Hj. apply Hargs. apply in_or_app. now left. }
    split; [now apply od_update_keys|].
    intros k. rewrite od_get_update, IH2; [reflexivity|].
    apply Hwf. apply nth_In. apply Hargs. apply in_or_app. right. now left.
Qed.
Print Assumptions C18_merge_last_wins.

Example C18_case :
  let h := [[("T", 298); ("mpp", 0)]; [("mpp", 1); ("x", 5)]] in
  (forall d, In d h -> NoDup (map fst d)) /\ (forall i, In i [0; 1] -> i < length h) /\
  merge_dicts h [0; 1] = (h ++ [[("T", 298); ("mpp", 1); ("x", 5)]], 2).
Proof.
  simpl. split; [|split; [|reflexivity]].
  - intros d [<-|[<-|[]]]; repeat constructor; simpl; intuition discriminate.
  - intros i [<-|[<-|[]]]; lia.
Qed.

(** Properties C08-C10: the parameter system. *)
From Coq Require Import Reals String Ascii List Bool Arith Lia Lra Psatz.
From Verif Require Import Common ParamModel.
Import ListNotations.
Open Scope R_scope.
Open Scope string_scope.
Open Scope list_scope.

(** * More fuel does not change an answer *)

Definition extends {A} (a b : out A) : Prop := forall r, a = Some r -> b = Some r.

Lemma obind_ext {A B} (a a' : out A) (f f' : A -> out B) :
  extends a a' -> (forall x, extends (f x) (f' x)) -> extends (obind a f) (obind a' f').
Proof.
  intros Ha Hf r. destruct a as [[x|e]|]; simpl; [| |discriminate].
  - rewrite (Ha _ eq_refl). simpl. apply Hf.
  - rewrite (Ha _ eq_refl). simpl. auto.
Qed.
Lemma ext_refl {A} (a : out A) : extends a a. Proof. intros r; auto. Qed.

Section Mono.
Context (db : database) (parse : string -> res expr) (si : R -> string -> res R) (builtin : string -> option R).

Lemma eval_mono g g' o e : (forall q, extends (g q) (g' q)) ->
  extends (eval builtin (Some g) o e) (eval builtin (Some g') o e).
Proof.
  intros Hg. induction e as [x|v|f a IHa b IHb|p|p alt IH]; simpl; try apply ext_refl.
  - apply obind_ext; [exact IHa|]. intros x. apply obind_ext; [exact IHb|]. intros y. apply ext_refl.
  - destruct (lookup o "get"); [apply ext_refl|apply Hg].
  - destruct (lookup o "tget"); [apply ext_refl|]. apply obind_ext; [exact IH|]. intros a r.
    destruct (g p) as [[x|e]|] eqn:E; [| |discriminate].
    + rewrite (Hg p _ E). auto.
    + rewrite (Hg p _ E). auto.
Qed.

Lemma eval_string_mono g g' o s : (forall q, extends (g q) (g' q)) ->
  extends (eval_string parse si builtin (Some g) o s) (eval_string parse si builtin (Some g') o s).
Proof.
  intros Hg. unfold eval_string. destruct (cut s) as [h u].
  destruct (mentions_T h), (lookup o "T"); try apply ext_refl;
  (destruct (parse h); [|apply ext_refl]; apply obind_ext; [now apply eval_mono|intros; apply ext_refl]).
Qed.

Notation gp := (get_parameter db parse si builtin).

Lemma gp_mono f : forall f' m p o, (f <= f')%nat -> extends (gp f m p o) (gp f' m p o).
Proof.
  induction f as [|f IH]; intros f' m p o Hle; [intros r; discriminate|].
  destruct f' as [|f']; [lia|]. assert (Hf : (f <= f')%nat) by lia. simpl.
  destruct (lookup db m); [|apply ext_refl].
  assert (Hc : forall s, extends (eval_string parse si builtin (Some (fun q => gp f m q o)) o s)
                                 (eval_string parse si builtin (Some (fun q => gp f' m q o)) o s)).
  { intros s. apply eval_string_mono. intros q. now apply IH. }
  assert (Ha : forall own, extends
    (match opt db m "x" with
     | Some el => match lookup o el with
        | Some x => match opt db m "parent0", opt db m "parent1" with
            | Some q0, Some q1 =>
               obind (match own with Some s => eval_string parse si builtin None o s | None => Some (Ok 0) end)
                 (fun b => obind (gp f q0 p (remove el o)) (fun v0 => obind (gp f q1 p (remove el o))
                   (fun v1 => Some (Ok (bow v0 v1 b x)))))
            | _, _ => Some (Err NoOptionError) end
        | None => Some (Err KeyError) end
     | None => match own with Some s => eval_string parse si builtin None o s
         | None => match opt db "Immediate Calculables" p with
            | Some ex => eval_string parse si builtin (Some (fun q => gp f m q o)) o ex
            | None => Some (Err ValueError) end end end)
    (match opt db m "x" with
     | Some el => match lookup o el with
        | Some x => match opt db m "parent0", opt db m "parent1" with
            | Some q0, Some q1 =>
               obind (match own with Some s => eval_string parse si builtin None o s | None => Some (Ok 0) end)
                 (fun b => obind (gp f' q0 p (remove el o)) (fun v0 => obind (gp f' q1 p (remove el o))
                   (fun v1 => Some (Ok (bow v0 v1 b x)))))
            | _, _ => Some (Err NoOptionError) end
        | None => Some (Err KeyError) end
     | None => match own with Some s => eval_string parse si builtin None o s
         | None => match opt db "Immediate Calculables" p with
            | Some ex => eval_string parse si builtin (Some (fun q => gp f' m q o)) o ex
            | None => Some (Err ValueError) end end end)).
  { intros own. destruct (opt db m "x") as [el|].
    - destruct (lookup o el); [|apply ext_refl].
      destruct (opt db m "parent0"), (opt db m "parent1"); try apply ext_refl.
      apply obind_ext; [apply ext_refl|]. intros b. apply obind_ext; [now apply IH|]. intros v0.
      apply obind_ext; [now apply IH|]. intros v1. apply ext_refl.
    - destruct own; [apply ext_refl|]. destruct (opt db "Immediate Calculables" p); [apply Hc|apply ext_refl]. }
  destruct (opt db "Final Calculables" p) as [fc|], (opt db m p) as [own|].
  - exact (Ha (Some own)).
  - apply Hc.
  - exact (Ha (Some own)).
  - exact (Ha None).
Qed.
End Mono.

(** * C09: the precedence, as rules *)

(** The declarative meaning of a lookup: five rules in order of precedence, written
    without fuel.  [Looks m p o r]: looking up [p] of [m] gives [r]. *)
Section Spec.
Context (db : database) (parse : string -> res expr) (si : R -> string -> res R) (builtin : string -> option R).

Definition defines (s p : string) (text : string) : Prop :=
  exists l, lookup db s = Some l /\ lookup l p = Some text.
Definition defines_not (s p : string) : Prop := forall text, ~ defines s p text.
Definition known (m : string) : Prop := lookup db m <> None.

Inductive Looks : string -> string -> kwargs -> res R -> Prop :=
| L_unknown m p o : ~ known m -> Looks m p o (Err AssertionError)
| L_final m p o text r :
    known m -> defines "Final Calculables" p text -> defines_not m p ->
    Text (Some m) o text r -> Looks m p o r
| L_alloy_missing m p o el :
    known m -> ~ (exists text, defines "Final Calculables" p text /\ defines_not m p) ->
    defines m "x" el -> lookup o el = None -> Looks m p o (Err KeyError)
| L_alloy_orphan m p o el x :
    known m -> ~ (exists text, defines "Final Calculables" p text /\ defines_not m p) ->
    defines m "x" el -> lookup o el = Some x ->
    (defines_not m "parent0" \/ defines_not m "parent1") -> Looks m p o (Err NoOptionError)
| L_alloy m p o el x q0 q1 rb r0 r1 :
    known m -> ~ (exists text, defines "Final Calculables" p text /\ defines_not m p) ->
    defines m "x" el -> lookup o el = Some x ->
    defines m "parent0" q0 -> defines m "parent1" q1 ->
    Bowing m p o rb ->
    (is_ok rb = true -> Looks q0 p (remove el o) r0) ->
    (is_ok rb = true -> is_ok r0 = true -> Looks q1 p (remove el o) r1) ->
    Looks m p o
      (match rb, r0, r1 with
       | Err e, _, _ => Err e
       | Ok _, Err e, _ => Err e
       | Ok _, Ok _, Err e => Err e
       | Ok b, Ok v0, Ok v1 => Ok (v0 * (1 - x) + v1 * x - b * (1 - x) * x)
       end)
| L_own m p o text r :
    known m -> defines_not m "x" -> defines m p text -> Text None o text r -> Looks m p o r
| L_immediate m p o text r :
    known m -> defines_not "Final Calculables" p -> defines_not m "x" -> defines_not m p ->
    defines "Immediate Calculables" p text -> Text (Some m) o text r -> Looks m p o r
| L_nothing m p o :
    known m -> defines_not "Final Calculables" p -> defines_not m "x" -> defines_not m p ->
    defines_not "Immediate Calculables" p -> Looks m p o (Err ValueError)
(** The bowing parameter: the alloy's own entry, 0 without one. *)
with Bowing : string -> string -> kwargs -> res R -> Prop :=
| B_none m p o : defines_not m p -> Bowing m p o (Ok 0)
| B_own m p o text rb : defines m p text -> Text None o text rb -> Bowing m p o rb
(** A text of the database; [Some m] when get and tget are available, for [m]. *)
with Text : option string -> kwargs -> string -> res R -> Prop :=
| T_temperature c o s :
    mentions_T (fst (cut s)) = true -> lookup o "T" = None -> Text c o s (Err KeyError)
| T_syntax c o s e :
    (mentions_T (fst (cut s)) = true -> lookup o "T" <> None) ->
    parse (fst (cut s)) = Err e -> Text c o s (Err e)
| T_error c o s ex e :
    (mentions_T (fst (cut s)) = true -> lookup o "T" <> None) ->
    parse (fst (cut s)) = Ok ex -> Value c o ex (Err e) -> Text c o s (Err e)
| T_plain c o s ex v :
    (mentions_T (fst (cut s)) = true -> lookup o "T" <> None) ->
    parse (fst (cut s)) = Ok ex -> Value c o ex (Ok v) -> snd (cut s) = None -> Text c o s (Ok v)
| T_unit c o s ex v u :
    (mentions_T (fst (cut s)) = true -> lookup o "T" <> None) ->
    parse (fst (cut s)) = Ok ex -> Value c o ex (Ok v) -> snd (cut s) = Some u -> Text c o s (si v u)
with Value : option string -> kwargs -> expr -> res R -> Prop :=
| V_num c o x : Value c o (ENum x) (Ok x)
| V_arg c o v x : lookup o v = Some x -> Value c o (EVar v) (Ok x)
| V_builtin c o v x : lookup o v = None -> builtin v = Some x -> Value c o (EVar v) (Ok x)
| V_name c o v : lookup o v = None -> builtin v = None -> Value c o (EVar v) (Err NameError)
| V_op_left c o f a b e : Value c o a (Err e) -> Value c o (EOp f a b) (Err e)
| V_op_right c o f a b x e : Value c o a (Ok x) -> Value c o b (Err e) -> Value c o (EOp f a b) (Err e)
| V_op c o f a b x y : Value c o a (Ok x) -> Value c o b (Ok y) -> Value c o (EOp f a b) (f x y)
| V_get_hidden c o p x : lookup o "get" = Some x -> Value c o (EGet p) (Err TypeError)
| V_get_unknown o p : lookup o "get" = None -> Value None o (EGet p) (Err NameError)
| V_get m o p r : lookup o "get" = None -> Looks m p o r -> Value (Some m) o (EGet p) r
| V_tget_hidden c o p a x : lookup o "tget" = Some x -> Value c o (ETGet p a) (Err TypeError)
| V_tget_unknown o p a : lookup o "tget" = None -> Value None o (ETGet p a) (Err NameError)
| V_tget_error m o p a e : lookup o "tget" = None -> Value (Some m) o a (Err e) -> Value (Some m) o (ETGet p a) (Err e)
| V_tget_default m o p a x : lookup o "tget" = None -> Value (Some m) o a (Ok x) ->
    Looks m p o (Err ValueError) -> Value (Some m) o (ETGet p a) (Ok x)
| V_tget m o p a x r : lookup o "tget" = None -> Value (Some m) o a (Ok x) ->
    Looks m p o r -> r <> Err ValueError -> Value (Some m) o (ETGet p a) r.

Scheme Looks_ind' := Minimality for Looks Sort Prop
with Bowing_ind' := Minimality for Bowing Sort Prop
with Text_ind' := Minimality for Text Sort Prop
with Value_ind' := Minimality for Value Sort Prop.
Combined Scheme spec_ind from Looks_ind', Bowing_ind', Text_ind', Value_ind'.

Notation gp := (get_parameter db parse si builtin).

Lemma opt_some s p x : opt db s p = Some x <-> defines s p x.
Proof.
  unfold opt, defines. destruct (lookup db s) as [l|].
  - split; [eauto|]. intros (l' & [= <-] & H). exact H.
  - split; [discriminate|]. intros (l' & H & _). discriminate.
Qed.
Lemma opt_none s p : opt db s p = None <-> defines_not s p.
Proof.
  unfold defines_not. split.
  - intros H x D. apply opt_some in D. congruence.
  - intros H. destruct (opt db s p) eqn:E; [|reflexivity]. apply opt_some in E. now apply H in E.
Qed.

(** ** Every answer follows from the rules *)
Definition ctx_of (f : nat) (c : option string) (o : kwargs) : option (string -> out R) :=
  option_map (fun m q => gp f m q o) c.

Lemma eval_sound f : (forall m p o r, gp f m p o = Some r -> Looks m p o r) ->
  forall c o e r, eval builtin (ctx_of f c o) o e = Some r -> Value c o e r.
Proof.
  intros IH c o e. induction e as [x|v|g a IHa b IHb|p|p alt IHalt]; intros r; simpl.
  - intros [= <-]. constructor.
  - destruct (lookup o v) eqn:E; [intros [= <-]; now constructor|].
    destruct (builtin v) eqn:B; intros [= <-]; [now constructor|now constructor].
  - destruct (eval _ _ _ a) as [[x|ea]|] eqn:Ea; simpl; [| |discriminate].
    + destruct (eval _ _ _ b) as [[y|eb]|] eqn:Eb; simpl; [| |discriminate].
      * intros [= <-]. apply V_op; auto.
      * intros [= <-]. eapply V_op_right; eauto.
    + intros [= <-]. apply V_op_left; auto.
  - destruct (lookup o "get") eqn:E; [intros [= <-]; econstructor; eassumption|].
    destruct c as [m|]; simpl; intros H.
    + apply V_get; auto.
    + injection H as <-. now constructor.
  - destruct (lookup o "tget") eqn:E; [intros [= <-]; econstructor; eassumption|].
    destruct c as [m|]; simpl in *; intros H.
    + destruct (eval _ _ _ alt) as [[a|ea]|] eqn:Ea; simpl in H; [| |discriminate].
      * destruct (gp f m p o) as [[v|er]|] eqn:G.
        -- injection H as <-. eapply V_tget; eauto. discriminate.
        -- destruct er; injection H as <-;
           first [ solve [eapply V_tget_default; eauto]
                 | solve [eapply V_tget; [assumption|eauto|eauto|discriminate]] ].
        -- discriminate.
      * injection H as <-. apply V_tget_error; auto.
    + injection H as <-. now constructor.
Qed.

Lemma eval_string_sound f : (forall m p o r, gp f m p o = Some r -> Looks m p o r) ->
  forall c o s r, eval_string parse si builtin (ctx_of f c o) o s = Some r -> Text c o s r.
Proof.
  intros IH c o s r. unfold eval_string. destruct (cut s) as [h u] eqn:Ec.
  assert (Hh : fst (cut s) = h) by now rewrite Ec. assert (Hu : snd (cut s) = u) by now rewrite Ec.
  assert (G : (mentions_T h = true -> lookup o "T" <> None) ->
    match parse h with
    | Err e => Some (Err e)
    | Ok ex => obind (eval builtin (ctx_of f c o) o ex)
         (fun v => match u with None => Some (Ok v) | Some u => Some (si v u) end)
    end = Some r -> Text c o s r).
  { intros HT. destruct (parse h) as [ex|e] eqn:Ep.
    - destruct (eval _ _ _ ex) as [[v|e]|] eqn:Ev; simpl; [| |discriminate].
      + destruct u as [u|]; intros [= <-].
        * eapply T_unit; rewrite ?Hh; eauto. eapply eval_sound; eauto.
        * eapply T_plain; rewrite ?Hh; eauto. eapply eval_sound; eauto.
      + intros [= <-]. eapply T_error; rewrite ?Hh; eauto. eapply eval_sound; eauto.
    - intros [= <-]. apply T_syntax; rewrite ?Hh; auto. }
  destruct (mentions_T h) eqn:Em.
  - destruct (lookup o "T") eqn:ET.
    + apply G. discriminate.
    + intros [= <-]. apply T_temperature; rewrite ?Hh; assumption.
  - apply G. discriminate.
Qed.

Lemma gp_sound f : forall m p o r, gp f m p o = Some r -> Looks m p o r.
Proof.
  induction f as [|f IH]; intros m p o r; [discriminate|]. simpl.
  destruct (lookup db m) eqn:Em; [|intros [= <-]; apply L_unknown; unfold known; congruence].
  assert (K : known m) by (unfold known; congruence).
  pose proof (eval_string_sound f IH) as Hes.
  assert (Rest : forall own, own = opt db m p ->
     ~ (exists text, defines "Final Calculables" p text /\ defines_not m p) ->
     (own = None -> defines_not "Final Calculables" p) ->
     (match opt db m "x" with
     | Some el => match lookup o el with
        | Some x => match opt db m "parent0", opt db m "parent1" with
            | Some q0, Some q1 =>
               obind (match own with Some s => eval_string parse si builtin None o s | None => Some (Ok 0) end)
                 (fun b => obind (gp f q0 p (remove el o)) (fun v0 => obind (gp f q1 p (remove el o))
                   (fun v1 => Some (Ok (bow v0 v1 b x)))))
            | _, _ => Some (Err NoOptionError) end
        | None => Some (Err KeyError) end
     | None => match own with Some s => eval_string parse si builtin None o s
         | None => match opt db "Immediate Calculables" p with
            | Some ex => eval_string parse si builtin (Some (fun q => gp f m q o)) o ex
            | None => Some (Err ValueError) end end end) = Some r -> Looks m p o r).
  { intros own Hown Hnf Hfin. destruct (opt db m "x") as [el|] eqn:Ex.
    - apply opt_some in Ex. destruct (lookup o el) as [x|] eqn:El.
      2:{ intros [= <-]. eapply L_alloy_missing; eauto. }
      destruct (opt db m "parent0") as [q0|] eqn:E0.
      2:{ intros [= <-]. eapply L_alloy_orphan; eauto. left. now apply opt_none. }
      destruct (opt db m "parent1") as [q1|] eqn:E1.
      2:{ intros [= <-]. eapply L_alloy_orphan; eauto. right. now apply opt_none. }
      apply opt_some in E0, E1.
      set (ob := match own with Some s => eval_string parse si builtin None o s | None => Some (Ok 0) end).
      assert (Hb : forall rb, ob = Some rb -> Bowing m p o rb).
      { unfold ob. intros rb. destruct own as [s|].
        - intros H. apply (B_own m p o s); [now apply opt_some|]. apply (Hes None). exact H.
        - intros [= <-]. apply B_none. now apply opt_none. }
      destruct ob as [[b|eb]|] eqn:Eb; simpl; [| |discriminate].
      + destruct (gp f q0 p (remove el o)) as [[v0|e0]|] eqn:G0; simpl; [| |discriminate].
        * destruct (gp f q1 p (remove el o)) as [[v1|e1]|] eqn:G1; simpl; [| |discriminate]; intros [= <-].
          -- apply (L_alloy m p o el x q0 q1 (Ok b) (Ok v0) (Ok v1)); auto.
          -- apply (L_alloy m p o el x q0 q1 (Ok b) (Ok v0) (Err e1)); auto.
        * intros [= <-]. apply (L_alloy m p o el x q0 q1 (Ok b) (Err e0) (Ok 0)); auto. discriminate.
      + intros [= <-]. apply (L_alloy m p o el x q0 q1 (Err eb) (Ok 0) (Ok 0)); auto; discriminate.
    - apply opt_none in Ex. destruct own as [s|].
      + intros H. apply (L_own m p o s r K Ex); [now apply opt_some|]. now apply (Hes None).
      + destruct (opt db "Immediate Calculables" p) as [ex|] eqn:Ei.
        * intros H. apply (L_immediate m p o ex r K (Hfin eq_refl) Ex);
          [now apply opt_none|now apply opt_some|now apply (Hes (Some m))].
        * intros [= <-]. apply L_nothing; auto; now apply opt_none. }
  destruct (opt db "Final Calculables" p) as [ex|] eqn:Ef; destruct (opt db m p) as [own|] eqn:Eo.
  - apply (Rest (Some own)); [reflexivity| |discriminate].
    intros (text & _ & Hn). apply opt_none in Hn. congruence.
  - intros H. apply (L_final m p o ex r K); [now apply opt_some|now apply opt_none|]. now apply (Hes (Some m)).
  - apply (Rest (Some own)); [reflexivity| |discriminate].
    intros (text & _ & Hn). apply opt_none in Hn. congruence.
  - apply (Rest None); [reflexivity| |intros _; now apply opt_none].
    intros (text & Hd & _). apply opt_some in Hd. congruence.
Qed.

(** ** Everything the rules give is found *)
Lemma ctx_mono f f' c o : (f <= f')%nat -> forall e,
  extends (eval builtin (ctx_of f c o) o e) (eval builtin (ctx_of f' c o) o e).
Proof.
  intros H e. destruct c as [m|]; simpl; [|apply ext_refl].
  apply eval_mono. intros q. now apply gp_mono.
Qed.
Lemma ctx_string_mono f f' c o : (f <= f')%nat -> forall s,
  extends (eval_string parse si builtin (ctx_of f c o) o s) (eval_string parse si builtin (ctx_of f' c o) o s).
Proof.
  intros H e. destruct c as [m|]; simpl; [|apply ext_refl].
  apply eval_string_mono. intros q. now apply gp_mono.
Qed.

Lemma eval_string_value f c o s ex : (mentions_T (fst (cut s)) = true -> lookup o "T" <> None) ->
  parse (fst (cut s)) = Ok ex ->
  eval_string parse si builtin (ctx_of f c o) o s =
  obind (eval builtin (ctx_of f c o) o ex)
    (fun v => match snd (cut s) with None => Some (Ok v) | Some u => Some (si v u) end).
Proof.
  intros HT Hp. unfold eval_string. destruct (cut s) as [h u]. simpl in *. rewrite Hp.
  destruct (mentions_T h); [|reflexivity]. destruct (lookup o "T"); [reflexivity|]. now destruct HT.
Qed.

Lemma complete :
  (forall m p o r, Looks m p o r -> exists f, gp f m p o = Some r) /\
  (forall m p o rb, Bowing m p o rb ->
     (match opt db m p with Some s => eval_string parse si builtin None o s | None => Some (Ok 0) end) = Some rb) /\
  (forall c o s r, Text c o s r -> exists f, eval_string parse si builtin (ctx_of f c o) o s = Some r) /\
  (forall c o e r, Value c o e r -> exists f, eval builtin (ctx_of f c o) o e = Some r).
Proof.
  assert (Hnotfinal : forall m p, ~ (exists text, defines "Final Calculables" p text /\ defines_not m p) ->
     opt db "Final Calculables" p = None \/ opt db m p <> None).
  { intros m p H. destruct (opt db "Final Calculables" p) as [s|] eqn:E; [|now left]. right. intros E2.
    apply H. exists s. split; [now apply opt_some|now apply opt_none]. }
  apply spec_ind.
  - intros m p o Hk. exists 1%nat. simpl. unfold known in Hk. destruct (lookup db m); [|reflexivity].
    destruct Hk. discriminate.
  - intros m p o text r Hk Hd Hn _ [f Hf]. exists (S f). simpl. unfold known in Hk.
    destruct (lookup db m); [|congruence]. apply opt_some in Hd. apply opt_none in Hn. now rewrite Hd, Hn.
  - intros m p o el Hk Hnf Hx Hl. exists 1%nat. simpl. unfold known in Hk.
    destruct (lookup db m); [|congruence]. apply opt_some in Hx. rewrite Hx, Hl.
    destruct (Hnotfinal _ _ Hnf) as [-> |Ho]; [reflexivity|].
    destruct (opt db m p); [|congruence]. destruct (opt db "Final Calculables" p); reflexivity.
  - intros m p o el x Hk Hnf Hx Hl Hpar. exists 1%nat. simpl. unfold known in Hk.
    destruct (lookup db m); [|congruence]. apply opt_some in Hx. rewrite Hx, Hl.
    assert (E : (match opt db m "parent0", opt db m "parent1" with Some _, Some _ => true | _, _ => false end) = false).
    { destruct Hpar as [Hp|Hp]; apply opt_none in Hp; rewrite Hp; [reflexivity|].
      destruct (opt db m "parent0"); reflexivity. }
    destruct (opt db m "parent0"), (opt db m "parent1"); try discriminate E;
    (destruct (Hnotfinal _ _ Hnf) as [-> |Ho]; [reflexivity|];
     destruct (opt db m p); [|congruence]; destruct (opt db "Final Calculables" p); reflexivity).
  - intros m p o el x q0 q1 rb r0 r1 Hk Hnf Hx Hl H0 H1 _ Hb' _ IH0 _ IH1.
    assert (Step : forall f, gp (S f) m p o =
       obind (Some rb) (fun b => obind (gp f q0 p (remove el o)) (fun v0 =>
         obind (gp f q1 p (remove el o)) (fun v1 => Some (Ok (bow v0 v1 b x)))))).
    { intros f. simpl. unfold known in Hk. destruct (lookup db m); [|congruence].
      apply opt_some in Hx, H0, H1. rewrite Hx, Hl, H0, H1.
      destruct (Hnotfinal _ _ Hnf) as [-> |Ho]; [now rewrite Hb'|].
      destruct (opt db m p); [|congruence]. rewrite Hb'. destruct (opt db "Final Calculables" p); reflexivity. }
    destruct rb as [b|eb].
    + destruct (IH0 eq_refl) as [f0 F0]. destruct r0 as [v0|e0].
      * destruct (IH1 eq_refl eq_refl) as [f1 F1]. exists (S (Nat.max f0 f1)). rewrite Step. simpl.
        rewrite (gp_mono db parse si builtin f0 (Nat.max f0 f1) q0 p (remove el o) ltac:(lia) _ F0).
        rewrite (gp_mono db parse si builtin f1 (Nat.max f0 f1) q1 p (remove el o) ltac:(lia) _ F1).
        simpl. destruct r1; reflexivity.
      * exists (S f0). rewrite Step. simpl. rewrite F0. reflexivity.
    + exists 1%nat. rewrite Step. reflexivity.
  - intros m p o text r Hk Hx Hd _ [f Hf]. exists 1%nat. simpl. unfold known in Hk.
    destruct (lookup db m); [|congruence]. apply opt_none in Hx. apply opt_some in Hd. rewrite Hd, Hx.
    simpl in Hf. destruct (opt db "Final Calculables" p); exact Hf.
  - intros m p o text r Hk Hf Hx Hn Hd _ [f Ht]. exists (S f). simpl. unfold known in Hk.
    destruct (lookup db m); [|congruence]. apply opt_none in Hf, Hx, Hn. apply opt_some in Hd.
    rewrite Hf, Hx, Hn, Hd. exact Ht.
  - intros m p o Hk Hf Hx Hn Hi. exists 1%nat. simpl. unfold known in Hk.
    destruct (lookup db m); [|congruence]. apply opt_none in Hf, Hx, Hn, Hi. now rewrite Hf, Hx, Hn, Hi.
  - intros m p o Hn. apply opt_none in Hn. now rewrite Hn.
  - intros m p o text rb Hd _ [f Hf]. apply opt_some in Hd. rewrite Hd. exact Hf.
  - intros c o s HT Ho. exists 0%nat. unfold eval_string. destruct (cut s) as [h u]. simpl in HT.
    now rewrite HT, Ho.
  - intros c o s e HT Hp. exists 0%nat. unfold eval_string. destruct (cut s) as [h u]. simpl in *. rewrite Hp.
    destruct (mentions_T h); [|reflexivity]. destruct (lookup o "T"); [reflexivity|]. now destruct HT.
  - intros c o s ex e HT Hp _ [f Hf]. exists f. now rewrite (eval_string_value _ _ _ _ _ HT Hp), Hf.
  - intros c o s ex v HT Hp _ [f Hf] Hu. exists f. now rewrite (eval_string_value _ _ _ _ _ HT Hp), Hf, Hu.
  - intros c o s ex v u HT Hp _ [f Hf] Hu. exists f. now rewrite (eval_string_value _ _ _ _ _ HT Hp), Hf, Hu.
  - intros. exists 0%nat. reflexivity.
  - intros c o v x H. exists 0%nat. simpl. now rewrite H.
  - intros c o v x H B. exists 0%nat. simpl. now rewrite H, B.
  - intros c o v H B. exists 0%nat. simpl. now rewrite H, B.
  - intros c o f a b e _ [k Hk]. exists k. simpl. now rewrite Hk.
  - intros c o f a b x e _ [k1 H1] _ [k2 H2]. exists (Nat.max k1 k2). simpl.
    rewrite (ctx_mono k1 (Nat.max k1 k2) c o ltac:(lia) a _ H1), (ctx_mono k2 (Nat.max k1 k2) c o ltac:(lia) b _ H2). reflexivity.
  - intros c o f a b x y _ [k1 H1] _ [k2 H2]. exists (Nat.max k1 k2). simpl.
    rewrite (ctx_mono k1 (Nat.max k1 k2) c o ltac:(lia) a _ H1), (ctx_mono k2 (Nat.max k1 k2) c o ltac:(lia) b _ H2). reflexivity.
  - intros c o p x H. exists 0%nat. simpl. now rewrite H.
  - intros o p H. exists 0%nat. simpl. now rewrite H.
  - intros m o p r H _ [k Hk]. exists k. simpl. now rewrite H.
  - intros c o p a x H. exists 0%nat. simpl. now rewrite H.
  - intros o p a H. exists 0%nat. simpl. now rewrite H.
  - intros m o p a e H _ [k Hk]. exists k. simpl in *. now rewrite H, Hk.
  - intros m o p a x H _ [k1 H1] _ [k2 H2]. exists (Nat.max k1 k2). simpl. rewrite H.
    pose proof (ctx_mono k1 (Nat.max k1 k2) (Some m) o ltac:(lia) a _ H1) as E. simpl in E. rewrite E.
    simpl. now rewrite (gp_mono db parse si builtin k2 (Nat.max k1 k2) m p o ltac:(lia) _ H2).
  - intros m o p a x r H _ [k1 H1] _ [k2 H2] Hr. exists (Nat.max k1 k2). simpl. rewrite H.
    pose proof (ctx_mono k1 (Nat.max k1 k2) (Some m) o ltac:(lia) a _ H1) as E. simpl in E. rewrite E.
    simpl. rewrite (gp_mono db parse si builtin k2 (Nat.max k1 k2) m p o ltac:(lia) _ H2).
    destruct r as [v|[]]; try reflexivity. now destruct Hr.
Qed.
End Spec.

(** Every lookup that gives an answer gives exactly what the rules say, and the
    answer is unique. *)
Theorem C09_lookup_precedence :
  forall db parse si builtin m p o r,
    (exists fuel, get_parameter db parse si builtin fuel m p o = Some r) <-> Looks db parse si builtin m p o r.
Proof.
  intros. split.
  - intros [f H]. eapply gp_sound, H.
  - apply complete.
Qed.
Print Assumptions C09_lookup_precedence.

Theorem C09_lookup_unique :
  forall db parse si builtin m p o r r',
    Looks db parse si builtin m p o r -> Looks db parse si builtin m p o r' -> r = r'.
Proof.
  intros db ps si bi m p o r r' H H'.
  apply C09_lookup_precedence in H as [f Hf], H' as [f' Hf'].
  pose proof (gp_mono db ps si bi f (Nat.max f f') m p o ltac:(lia) _ Hf).
  pose proof (gp_mono db ps si bi f' (Nat.max f f') m p o ltac:(lia) _ Hf'). congruence.
Qed.
Print Assumptions C09_lookup_unique.

(** A small database in the style of the shipped one. *)
Definition ex_db : database :=
  [("GaAs", [("Eg0", "2"); ("gap", "3 eV")]);
   ("InAs", [("Eg0", "1"); ("gap", "5 eV")]);
   ("InGaAs", [("x", "In"); ("parent0", "GaAs"); ("parent1", "InAs"); ("gap", "In eV")]);
   ("Immediate Calculables", [("twice", "get('gap')*get('Eg0')")]);
   ("Final Calculables", [("last", "tget('nothing',4)+get('twice')")])].
Definition ex_parse (s : string) : res expr :=
  if String.eqb s "1" then Ok (ENum 1) else if String.eqb s "2" then Ok (ENum 2)
  else if String.eqb s "3" then Ok (ENum 3) else if String.eqb s "5" then Ok (ENum 5)
  else if String.eqb s "In" then Ok (EVar "In")
  else if String.eqb s "get('gap')*get('Eg0')" then Ok (EOp (fun a b => Ok (a * b)) (EGet "gap") (EGet "Eg0"))
  else if String.eqb s "tget('nothing',4)+get('twice')" then
    Ok (EOp (fun a b => Ok (a + b)) (ETGet "nothing" (ENum 4)) (EGet "twice"))
  else Err ValueError.
Definition ex_si (v : R) (u : string) : res R := if String.eqb u "eV" then Ok (v * 10) else Err KeyError.
Definition ex_builtin (s : string) : option R := None.
Notation ex_gp := (get_parameter ex_db ex_parse ex_si ex_builtin).

Example C09_case : exists v, Looks ex_db ex_parse ex_si ex_builtin "InGaAs" "last" [("In", 1 / 2)] (Ok v).
Proof. eexists. apply C09_lookup_precedence. exists 4%nat. cbv -[Rplus Rmult Rminus Rdiv Ropp Rinv IZR]. reflexivity. Qed.

(** * C08: alloys at their ends *)
Section Alloy.
Context (db : database) (parse : string -> res expr) (si : R -> string -> res R) (builtin : string -> option R).
Notation gp := (get_parameter db parse si builtin).
Notation answers m p o r := (exists f, gp f m p o = Some r).

(** [m] is an alloy of [q0] and [q1] with the element [el]. *)
Definition alloy (m q0 q1 el : string) : Prop :=
  defines db m "x" el /\ defines db m "parent0" q0 /\ defines db m "parent1" q1.

(** The alloy rule is used for [p]. *)
Definition bowed (m p : string) : Prop :=
  defines_not db "Final Calculables" p \/ exists text, defines db m p text.

Lemma alloy_step m q0 q1 el p o x : alloy m q0 q1 el -> bowed m p -> lookup o el = Some x ->
  forall f, gp (S f) m p o =
    obind (match opt db m p with Some s => eval_string parse si builtin None o s | None => Some (Ok 0) end)
      (fun b => obind (gp f q0 p (remove el o)) (fun v0 =>
         obind (gp f q1 p (remove el o)) (fun v1 => Some (Ok (bow v0 v1 b x))))).
Proof.
  intros (Hx & H0 & H1) Hb Hl f. simpl.
  assert (Hk : lookup db m <> None) by (destruct Hx as (l & -> & _); discriminate).
  destruct (lookup db m); [|congruence].
  apply opt_some in Hx, H0, H1. rewrite Hx, Hl, H0, H1.
  destruct Hb as [Hb|[text Hb]].
  - apply opt_none in Hb. now rewrite Hb.
  - apply opt_some in Hb. rewrite Hb. destruct (opt db "Final Calculables" p); reflexivity.
Qed.

Lemma C08_core m q0 q1 el p o x v :
  alloy m q0 q1 el -> bowed m p -> lookup o el = Some x -> answers m p o (Ok v) ->
  exists v0 v1, answers q0 p (remove el o) (Ok v0) /\ answers q1 p (remove el o) (Ok v1) /\
    (x = 0 -> v = v0) /\ (x = 1 -> v = v1) /\
    (defines_not db m p -> 0 <= x <= 1 -> Rmin v0 v1 <= v <= Rmax v0 v1).
Proof.
  intros Ha Hb Hl [[|f] Hf]; [discriminate|]. rewrite (alloy_step _ _ _ _ _ _ _ Ha Hb Hl) in Hf.
  set (ob := match opt db m p with Some s => eval_string parse si builtin None o s | None => Some (Ok 0) end) in *.
  destruct ob as [[b|?]|] eqn:Eb; try discriminate Hf. cbn [obind] in Hf.
  destruct (gp f q0 p (remove el o)) as [[v0|?]|] eqn:E0; try discriminate Hf. cbn [obind] in Hf.
  destruct (gp f q1 p (remove el o)) as [[v1|?]|] eqn:E1; try discriminate Hf. cbn [obind] in Hf.
  injection Hf as <-. exists v0, v1. unfold bow.
  split; [eauto|]. split; [eauto|]. split; [intros ->; ring|]. split; [intros ->; ring|].
  intros Hn Hx. apply opt_none in Hn. unfold ob in Eb. rewrite Hn in Eb. injection Eb as <-.
  unfold Rmin, Rmax. destruct (Rle_dec v0 v1); nra.
Qed.

Lemma C08_exists m q0 q1 el p o x b v0 v1 :
  alloy m q0 q1 el -> bowed m p -> lookup o el = Some x -> Bowing db parse si builtin m p o (Ok b) ->
  answers q0 p (remove el o) (Ok v0) -> answers q1 p (remove el o) (Ok v1) ->
  exists v, answers m p o (Ok v).
Proof.
  intros Ha Hb Hl HB [f0 H0] [f1 H1].
  exists (bow v0 v1 b x), (S (Nat.max f0 f1)). rewrite (alloy_step _ _ _ _ _ _ _ Ha Hb Hl).
  destruct (complete db parse si builtin) as (_ & HB' & _). rewrite (HB' _ _ _ _ HB). cbn [obind].
  rewrite (gp_mono db parse si builtin f0 (Nat.max f0 f1) q0 p (remove el o) ltac:(lia) _ H0).
  rewrite (gp_mono db parse si builtin f1 (Nat.max f0 f1) q1 p (remove el o) ltac:(lia) _ H1). reflexivity.
Qed.

(** ** Final calculables of an alloy at composition 0 (end = false) or 1 *)

(** The expression does not use the composition. *)
Fixpoint independent (el : string) (e : expr) : Prop :=
  match e with
  | ENum _ => True
  | EVar v => v <> el
  | EOp _ a b => independent el a /\ independent el b
  | EGet _ => True
  | ETGet _ a => independent el a
  end.
(** Names of the parameters it asks for. *)
Fixpoint asks (e : expr) : list string :=
  match e with
  | ENum _ | EVar _ => []
  | EOp _ a b => asks a ++ asks b
  | EGet p => [p]
  | ETGet p a => p :: asks a
  end.

Lemma lookup_remove {A} (o : list (string * A)) el k : k <> el -> lookup (remove el o) k = lookup o k.
Proof.
  intros H. induction o as [|[k' v] o IH]; simpl; [reflexivity|].
  destruct (String.eqb_spec k' el) as [->|Hne]; simpl.
  - rewrite IH. destruct (String.eqb_spec el k); congruence.
  - destruct (String.eqb_spec k' k); [reflexivity|assumption].
Qed.
Lemma lookup_remove_same {A} (o : list (string * A)) el : lookup (remove el o) el = None.
Proof.
  induction o as [|[k' v] o IH]; simpl; [reflexivity|].
  destruct (String.eqb_spec k' el) as [->|Hne]; simpl; [assumption|].
  destruct (String.eqb_spec k' el); congruence.
Qed.

Section EndPoint.
Context (m q0 q1 el : string) (o : kwargs) (x : R) (good : list string).
(** [q] is the parent at the end [x]. *)
Context (q : string).
Context (Halloy : alloy m q0 q1 el) (Hx : lookup o el = Some x).
Context (Hend : (x = 0 /\ q = q0) \/ (x = 1 /\ q = q1)).
Context (Hel : el <> "T" /\ el <> "get" /\ el <> "tget").
(** [good] is a set of parameters closed under the final calculables; those that
    are not final calculables have a bowing that can be evaluated, and both
    parents have a value. *)
Context (Hfinal : forall p text, In p good -> defines db "Final Calculables" p text ->
  defines_not db m p /\ defines_not db q p /\ known db q /\
  forall ex, parse (fst (cut text)) = Ok ex -> independent el ex /\ incl (asks ex) good).
Context (Hbowed : forall p, In p good -> defines_not db "Final Calculables" p ->
  exists b v0 v1, Bowing db parse si builtin m p o (Ok b) /\
    answers q0 p (remove el o) (Ok v0) /\ answers q1 p (remove el o) (Ok v1)).

Lemma eval_end f : (forall p r, In p good -> gp f q p (remove el o) = Some r -> answers m p o r) ->
  forall e r, independent el e -> incl (asks e) good ->
    eval builtin (Some (fun p => gp f q p (remove el o))) (remove el o) e = Some r ->
    exists f', eval builtin (Some (fun p => gp f' m p o)) o e = Some r.
Proof.
  intros IH. destruct Hel as (HT & Hg & Ht). induction e as [y|v|g a IHa b IHb|p|p alt IHalt]; intros r Hi Hin; simpl in *.
  - intros H. exists 0%nat. exact H.
  - intros H. exists 0%nat. rewrite lookup_remove in H by auto. exact H.
  - destruct Hi as [Hi1 Hi2]. apply incl_app_inv in Hin as [Hin1 Hin2].
    destruct (eval _ _ _ a) as [[y|ea]|] eqn:Ea; simpl; [| |discriminate].
    + destruct (IHa _ Hi1 Hin1 eq_refl) as [f1 F1].
      destruct (eval _ _ (remove el o) b) as [[z|eb]|] eqn:Eb; simpl; [| |discriminate].
      * destruct (IHb _ Hi2 Hin2 eq_refl) as [f2 F2]. intros H. exists (Nat.max f1 f2).
        pose proof (ctx_mono db parse si builtin f1 (Nat.max f1 f2) (Some m) o ltac:(lia) a _ F1) as G1.
        pose proof (ctx_mono db parse si builtin f2 (Nat.max f1 f2) (Some m) o ltac:(lia) b _ F2) as G2.
        simpl in G1, G2. rewrite G1. simpl. rewrite G2. exact H.
      * destruct (IHb _ Hi2 Hin2 eq_refl) as [f2 F2]. intros H. exists (Nat.max f1 f2).
        pose proof (ctx_mono db parse si builtin f1 (Nat.max f1 f2) (Some m) o ltac:(lia) a _ F1) as G1.
        pose proof (ctx_mono db parse si builtin f2 (Nat.max f1 f2) (Some m) o ltac:(lia) b _ F2) as G2.
        simpl in G1, G2. rewrite G1. simpl. rewrite G2. exact H.
    + destruct (IHa _ Hi1 Hin1 eq_refl) as [f1 F1]. intros H. exists f1. now rewrite F1.
  - rewrite lookup_remove by auto. destruct (lookup o "get") eqn:E; [intros H; exists 0%nat; exact H|].
    intros H. apply IH in H as [f' Hf']; [|apply Hin; now left]. exists f'. exact Hf'.
  - rewrite lookup_remove by auto. destruct (lookup o "tget") eqn:E; [intros H; exists 0%nat; exact H|].
    assert (Hin2 : incl (asks alt) good) by (intros z Hz; apply Hin; now right).
    destruct (eval _ _ _ alt) as [[y|ea]|] eqn:Ea; simpl; [| |discriminate].
    + destruct (IHalt _ Hi Hin2 eq_refl) as [f1 F1]. intros H.
      assert (exists r', gp f q p (remove el o) = Some r' /\
                match r' with Err ValueError => r = Ok y | _ => r = r' end) as (r' & Hr' & Hrr).
      { destruct (gp f q p (remove el o)) as [[z|[]]|]; try discriminate H; injection H as <-; (eexists; split; reflexivity). }
      apply IH in Hr' as [f2 F2]; [|apply Hin; now left]. exists (Nat.max f1 f2).
      pose proof (ctx_mono db parse si builtin f1 (Nat.max f1 f2) (Some m) o ltac:(lia) alt _ F1) as G1.
      simpl in G1. rewrite G1. simpl.
      rewrite (gp_mono db parse si builtin f2 (Nat.max f1 f2) m p o ltac:(lia) _ F2).
      destruct r' as [z|[]]; now rewrite Hrr.
    + destruct (IHalt _ Hi Hin2 eq_refl) as [f1 F1]. intros H. exists f1. now rewrite F1.
Qed.

Lemma end_final f : forall p r, In p good -> gp f q p (remove el o) = Some r -> answers m p o r.
Proof.
  induction f as [|f IH]; intros p r Hp; [discriminate|]. intros H.
  destruct (opt db "Final Calculables" p) as [text|] eqn:Ef.
  - destruct (Hfinal p text Hp) as (Hm & Hq & Hk & Hex); [now apply opt_some|].
    simpl in H. unfold known in Hk. destruct (lookup db q) as [lq|]; [|congruence].
    apply opt_none in Hq, Hm. rewrite Ef, Hq in H.
    assert (Hkm : lookup db m <> None) by (destruct Halloy as ((lm & Hlm & _) & _); rewrite Hlm; discriminate).
    assert (exists f', eval_string parse si builtin (Some (fun p => gp f' m p o)) o text = Some r) as [f' Hf'].
    { unfold eval_string in *. destruct (cut text) as [h u]. simpl in Hex. destruct Hel as (HT & _).
      rewrite lookup_remove in H by auto.
      destruct (mentions_T h), (lookup o "T");
      try (exists 0%nat; exact H);
      (destruct (parse h) as [ex|e]; [|exists 0%nat; exact H]; destruct (Hex ex eq_refl) as [Hi Hin];
       destruct (eval builtin (Some (fun p => gp f q p (remove el o))) (remove el o) ex) as [rr|] eqn:Ee; [|discriminate H];
       destruct (eval_end f IH ex _ Hi Hin Ee) as [f' Hf']; exists f'; rewrite Hf'; exact H). }
    exists (S f'). simpl. destruct (lookup db m); [|congruence]. rewrite Ef, Hm. exact Hf'.
  - destruct (Hbowed p Hp) as (b & v0 & v1 & HB & H0 & H1); [now apply opt_none|].
    assert (Hb : bowed m p) by (left; now apply opt_none).
    destruct (C08_exists m q0 q1 el p o x b v0 v1 Halloy Hb Hx HB H0 H1) as [v Hv].
    destruct (C08_core m q0 q1 el p o x v Halloy Hb Hx Hv) as (w0 & w1 & W0 & W1 & E0 & E1 & _).
    assert (Hu : forall n a b, answers n p (remove el o) a -> answers n p (remove el o) b -> a = b).
    { intros n a a' Ha Ha'. eapply C09_lookup_unique; apply C09_lookup_precedence; eassumption. }
    destruct Hend as [[X ->]|[X ->]].
    + assert (r = Ok w0) as -> by (eapply Hu; eauto). now rewrite <- (E0 X).
    + assert (r = Ok w1) as -> by (eapply Hu; eauto). now rewrite <- (E1 X).
Qed.
End EndPoint.
End Alloy.

(** Parameters taken from the alloy rule: exact at both ends, whatever the bowing,
    and between the parents without bowing. *)
Theorem C08_alloy_ends_partial :
  forall db parse si builtin m q0 q1 el p o x fuel v,
    alloy db m q0 q1 el -> bowed db m p -> lookup o el = Some x ->
    get_parameter db parse si builtin fuel m p o = Some (Ok v) ->
    exists v0 v1,
      (exists f, get_parameter db parse si builtin f q0 p (remove el o) = Some (Ok v0)) /\
      (exists f, get_parameter db parse si builtin f q1 p (remove el o) = Some (Ok v1)) /\
      (x = 0 -> v = v0) /\ (x = 1 -> v = v1) /\
      (defines_not db m p -> 0 <= x <= 1 -> Rmin v0 v1 <= v <= Rmax v0 v1).
Proof. intros. eapply C08_core; eauto. Qed.
Print Assumptions C08_alloy_ends_partial.

(** Nested alloys: the parent is asked with the remaining compositions, so the
    theorem applies again.  Parameters computed by final calculables: at an end the
    alloy gives every answer of that parent, if neither defines the parameter
    itself, both parents have every parameter the calculables ask for, and the
    expressions do not use the composition. *)
Theorem C08_final_calculables_at_ends_partial :
  forall db parse si builtin m q0 q1 el o x good q p r fuel,
    alloy db m q0 q1 el -> lookup o el = Some x ->
    ((x = 0 /\ q = q0) \/ (x = 1 /\ q = q1)) ->
    (el <> "T" /\ el <> "get" /\ el <> "tget") ->
    (forall p text, In p good -> defines db "Final Calculables" p text ->
       defines_not db m p /\ defines_not db q p /\ known db q /\
       forall ex, parse (fst (cut text)) = Ok ex -> independent el ex /\ incl (asks ex) good) ->
    (forall p, In p good -> defines_not db "Final Calculables" p ->
       exists b v0 v1, Bowing db parse si builtin m p o (Ok b) /\
        (exists f, get_parameter db parse si builtin f q0 p (remove el o) = Some (Ok v0)) /\
        (exists f, get_parameter db parse si builtin f q1 p (remove el o) = Some (Ok v1))) ->
    In p good ->
    get_parameter db parse si builtin fuel q p (remove el o) = Some r ->
    exists f, get_parameter db parse si builtin f m p o = Some r.
Proof. intros. eapply end_final; eauto. Qed.
Print Assumptions C08_final_calculables_at_ends_partial.

Lemma def_ex s p v : opt ex_db s p = Some v -> defines ex_db s p v.
Proof. apply opt_some. Qed.
Lemma ndef_ex s p : opt ex_db s p = None -> defines_not ex_db s p.
Proof. apply opt_none. Qed.
Example C08_case :
  alloy ex_db "InGaAs" "GaAs" "InAs" "In" /\ bowed ex_db "InGaAs" "gap" /\
  exists v, ex_gp 3 "InGaAs" "gap" [("T", 300); ("In", 1)] = Some (Ok v).
Proof.
  split; [|split].
  - repeat split; now apply def_ex.
  - right. eexists. now apply def_ex.
  - eexists. cbv -[Rplus Rmult Rminus Rdiv Ropp Rinv IZR]. reflexivity.
Qed.

(** The shipped style "last = tget(...) + get(...)" at composition 1. *)
Definition ex_db2 : database :=
  [("GaAs", [("gap", "3 eV")]); ("InAs", [("gap", "5 eV")]);
   ("InGaAs", [("x", "In"); ("parent0", "GaAs"); ("parent1", "InAs"); ("gap", "In eV")]);
   ("Final Calculables", [("last", "tget('gap',4)")])].
Definition ex_parse2 (s : string) : res expr :=
  if String.eqb s "3" then Ok (ENum 3) else if String.eqb s "5" then Ok (ENum 5)
  else if String.eqb s "In" then Ok (EVar "In")
  else if String.eqb s "tget('gap',4)" then Ok (ETGet "gap" (ENum 4)) else Err ValueError.
Example C08_final_case : exists f r, get_parameter ex_db2 ex_parse2 ex_si ex_builtin f "InGaAs" "last" [("In", 1)] = Some r.
Proof.
  assert (exists r, get_parameter ex_db2 ex_parse2 ex_si ex_builtin 3 "InAs" "last" (remove "In" [("In", 1)]) = Some r) as [r Hr].
  { eexists. cbv -[Rplus Rmult Rminus Rdiv Ropp Rinv IZR]. reflexivity. }
  destruct (C08_final_calculables_at_ends_partial ex_db2 ex_parse2 ex_si ex_builtin "InGaAs" "GaAs" "InAs" "In" [("In", 1)] 1
     ["last"; "gap"] "InAs" "last" r 3) as [f Hf].
  - repeat split; now apply opt_some.
  - reflexivity.
  - right. auto.
  - repeat split; discriminate.
  - intros p text [<-|[<-|[]]] Hd.
    + apply opt_some in Hd. injection Hd as <-.
      split; [now apply opt_none|]. split; [now apply opt_none|]. split; [discriminate|].
      intros ex [= <-]. simpl. split; [exact I|]. intros z [<-|[]]. right. now left.
    + apply opt_some in Hd. discriminate.
  - intros p [<-|[<-|[]]] Hn.
    + apply opt_none in Hn. discriminate.
    + assert (Hb : Bowing ex_db2 ex_parse2 ex_si ex_builtin "InGaAs" "gap" [("In", 1)] (Ok (1 * 10))).
      { eapply B_own with (text := "In eV"); [now apply opt_some|].
        change (Ok (1 * 10)) with (ex_si 1 "eV").
        apply T_unit with (ex := EVar "In"); [discriminate|reflexivity|now constructor|reflexivity]. }
      exists (1 * 10). eexists. eexists. split; [exact Hb|].
      split; exists 2%nat; cbv -[Rplus Rmult Rminus Rdiv Ropp Rinv IZR]; reflexivity.
  - now left.
  - exact Hr.
  - exists f, r. exact Hf.
Qed.

(** Without those conditions the ends differ: an alloy whose second parent lacks a
    parameter that a calculable only tries to get takes the alternative at
    composition 0, where the first parent has a value. *)
Definition bad_db : database :=
  [("GaAs", [("gap", "3")]); ("Ge", [("other", "5")]);
   ("GeGaAs", [("x", "Ge"); ("parent0", "GaAs"); ("parent1", "Ge")]);
   ("Final Calculables", [("last", "tget('gap',4)")])].
Theorem C08_alloy_ends_refuted :
  exists db parse si builtin m q0 q1 el p f v v0,
    alloy db m q0 q1 el /\
    get_parameter db parse si builtin f m p [(el, 0)] = Some (Ok v) /\
    get_parameter db parse si builtin f q0 p [] = Some (Ok v0) /\ v <> v0.
Proof.
  exists bad_db, ex_parse2, ex_si, ex_builtin, "GeGaAs", "GaAs", "Ge", "Ge", "last", 4%nat, 4, 3.
  split; [repeat split; now apply opt_some|]. split; [reflexivity|]. split; [reflexivity|]. lra.
Qed.
Print Assumptions C08_alloy_ends_refuted.

(** * C10: termination *)

(** If the calculables can be layered, that is each asks only for parameters of
    lower rank, every lookup gives an answer, at the latest at a depth of the
    number of keyword arguments plus the rank plus one; alloys may refer to each
    other in any way, also in circles, because every alloy step uses up one
    keyword argument. *)
Definition layered (db : database) (parse : string -> res expr) (rank : string -> nat) : Prop :=
  forall sec p text ex q,
    sec = "Final Calculables" \/ sec = "Immediate Calculables" ->
    defines db sec p text -> parse (fst (cut text)) = Ok ex -> In q (asks ex) -> (rank q < rank p)%nat.

Lemma eval_total builtin g o e : (forall q, In q (asks e) -> g q <> None) -> eval builtin (Some g) o e <> None.
Proof.
  induction e as [x|v|f a IHa b IHb|p|p alt IH]; simpl; intros H; try discriminate.
  - destruct (lookup o v); [discriminate|]. destruct (builtin v); discriminate.
  - assert (Ha : eval builtin (Some g) o a <> None) by (apply IHa; intros; apply H, in_or_app; auto).
    assert (Hb : eval builtin (Some g) o b <> None) by (apply IHb; intros; apply H, in_or_app; auto).
    destruct (eval builtin (Some g) o a) as [[]|]; simpl; [|discriminate|congruence].
    destruct (eval builtin (Some g) o b) as [[]|]; simpl; [discriminate|discriminate|congruence].
  - destruct (lookup o "get"); [discriminate|]. apply H. now left.
  - destruct (lookup o "tget"); [discriminate|].
    assert (Ha : eval builtin (Some g) o alt <> None) by (apply IH; intros; apply H; auto).
    assert (Hp : g p <> None) by (apply H; now left).
    destruct (eval builtin (Some g) o alt) as [[]|]; simpl; [|discriminate|congruence].
    destruct (g p) as [[|[]]|]; try discriminate; congruence.
Qed.
Lemma eval_total_none builtin o e : eval builtin None o e <> None.
Proof.
  induction e as [x|v|f a IHa b IHb|p|p alt IH]; simpl; try discriminate.
  - destruct (lookup o v); [discriminate|]. destruct (builtin v); discriminate.
  - destruct (eval builtin None o a) as [[]|]; simpl; [|discriminate|congruence].
    destruct (eval builtin None o b) as [[]|]; simpl; [discriminate|discriminate|congruence].
  - destruct (lookup o "get"); discriminate.
  - destruct (lookup o "tget"); discriminate.
Qed.
Lemma eval_string_total parse si builtin rec o s :
  (forall ex, parse (fst (cut s)) = Ok ex -> eval builtin rec o ex <> None) ->
  eval_string parse si builtin rec o s <> None.
Proof.
  intros H. unfold eval_string. destruct (cut s) as [h u]. simpl in H.
  destruct (mentions_T h), (lookup o "T"); try discriminate;
  (destruct (parse h) as [ex|]; [|discriminate]; specialize (H ex eq_refl);
   destruct (eval builtin rec o ex) as [[]|]; simpl; [destruct u; discriminate|discriminate|congruence]).
Qed.
Lemma remove_shorter {A} (o : list (string * A)) el x : lookup o el = Some x -> (length (remove el o) < length o)%nat.
Proof.
  induction o as [|[k v] o IH]; simpl; [discriminate|].
  assert (Hle : (length (remove el o) <= length o)%nat).
  { unfold remove. clear. induction o as [|a o IH]; simpl; [lia|]. destruct (negb _); simpl; lia. }
  unfold remove in *. simpl. destruct (String.eqb_spec k el); simpl; intros H; [lia|]. specialize (IH H). lia.
Qed.

Theorem C10_layered_lookup_terminates :
  forall db parse si builtin rank, layered db parse rank ->
    forall m p o, get_parameter db parse si builtin (S (length o + rank p)) m p o <> None.
Proof.
  intros db parse si builtin rank HL.
  enough (G : forall f m p o, (length o + rank p < f)%nat -> get_parameter db parse si builtin f m p o <> None).
  { intros m p o. apply G. lia. }
  induction f as [|f IH]; intros m p o Hf; [lia|]. simpl.
  destruct (lookup db m); [|discriminate].
  assert (Hcalc : forall sec text, sec = "Final Calculables" \/ sec = "Immediate Calculables" ->
     defines db sec p text -> eval_string parse si builtin (Some (fun q => get_parameter db parse si builtin f m q o)) o text <> None).
  { intros sec text Hsec Hd. apply eval_string_total. intros ex Hex. apply eval_total. intros q Hq.
    apply IH. pose proof (HL sec p text ex q Hsec Hd Hex Hq). lia. }
  assert (Hown : forall s, eval_string parse si builtin None o s <> None).
  { intros s. apply eval_string_total. intros ex _. apply eval_total_none. }
  assert (Rest : forall own, 
    (match opt db m "x" with
     | Some el => match lookup o el with
        | Some x => match opt db m "parent0", opt db m "parent1" with
            | Some q0, Some q1 =>
               obind (match own with Some s => eval_string parse si builtin None o s | None => Some (Ok 0) end)
                 (fun b => obind (get_parameter db parse si builtin f q0 p (remove el o)) (fun v0 =>
                   obind (get_parameter db parse si builtin f q1 p (remove el o))
                   (fun v1 => Some (Ok (bow v0 v1 b x)))))
            | _, _ => Some (Err NoOptionError) end
        | None => Some (Err KeyError) end
     | None => match own with Some s => eval_string parse si builtin None o s
         | None => match opt db "Immediate Calculables" p with
            | Some ex => eval_string parse si builtin (Some (fun q => get_parameter db parse si builtin f m q o)) o ex
            | None => Some (Err ValueError) end end end) <> None).
  { intros own. destruct (opt db m "x") as [el|].
    - destruct (lookup o el) as [x|] eqn:El; [|discriminate].
      pose proof (remove_shorter o el x El) as Hlt.
      destruct (opt db m "parent0") as [q0|]; [|discriminate].
      destruct (opt db m "parent1") as [q1|]; [|discriminate].
      assert (H0 : get_parameter db parse si builtin f q0 p (remove el o) <> None) by (apply IH; lia).
      assert (H1 : get_parameter db parse si builtin f q1 p (remove el o) <> None) by (apply IH; lia).
      assert (Hob : (match own with Some s => eval_string parse si builtin None o s | None => Some (Ok 0) end) <> None).
      { destruct own; [apply Hown|discriminate]. }
      destruct (match own with Some s => eval_string parse si builtin None o s | None => Some (Ok 0) end) as [[]|];
        simpl; [|discriminate|congruence].
      destruct (get_parameter db parse si builtin f q0 p (remove el o)) as [[]|]; simpl; [|discriminate|congruence].
      destruct (get_parameter db parse si builtin f q1 p (remove el o)) as [[]|]; simpl; [discriminate|discriminate|congruence].
    - destruct own; [apply Hown|]. destruct (opt db "Immediate Calculables" p) eqn:Ei; [|discriminate].
      eapply Hcalc; [now right|]. now apply opt_some. }
  destruct (opt db "Final Calculables" p) as [fc|] eqn:Ef, (opt db m p) as [own|].
  - exact (Rest (Some own)).
  - eapply Hcalc; [now left|]. now apply opt_some.
  - exact (Rest (Some own)).
  - exact (Rest None).
Qed.
Print Assumptions C10_layered_lookup_terminates.

Example C10_case : layered ex_db ex_parse
  (fun p => if String.eqb p "last" then 2%nat else if String.eqb p "twice" then 1%nat else 0%nat).
Proof.
  intros sec p text ex q [->| ->] (l & [= <-] & H); cbn [lookup] in H.
  - destruct (String.eqb_spec "last" p) as [<-|]; [|discriminate]. injection H as <-.
    intros [= <-]. simpl. intros [<-|[<-|[]]]; simpl; lia.
  - destruct (String.eqb_spec "twice" p) as [<-|]; [|discriminate]. injection H as <-.
    intros [= <-]. simpl. intros [<-|[<-|[]]]; simpl; lia.
Qed.

(** A material that is its own parent does not loop: the second step misses the
    composition, which the first one removed, and raises KeyError. *)
Theorem C10_own_parent_refuted :
  forall db parse si builtin m el q1 p o x f,
    alloy db m m q1 el -> defines_not db m p -> defines_not db "Final Calculables" p ->
    lookup o el = Some x ->
    get_parameter db parse si builtin (S (S f)) m p o = Some (Err KeyError).
Proof.
  intros db parse si builtin m el q1 p o x f Ha Hp Hf Hl.
  assert (Hb : bowed db m p) by now left.
  rewrite (alloy_step db parse si builtin m m q1 el p o x Ha Hb Hl).
  apply opt_none in Hp as Hp'. rewrite Hp'. cbn [obind].
  assert (Hs : get_parameter db parse si builtin (S f) m p (remove el o) = Some (Err KeyError)).
  { destruct Ha as (Hx & _). simpl. assert (Hk : lookup db m <> None) by (destruct Hx as (l & -> & _); discriminate).
    destruct (lookup db m); [|congruence]. apply opt_none in Hf. apply opt_some in Hx.
    now rewrite Hf, Hx, lookup_remove_same. }
  rewrite Hs. reflexivity.
Qed.
Print Assumptions C10_own_parent_refuted.
Definition loop_db : database := [("A", [("x", "In"); ("parent0", "A"); ("parent1", "B")]); ("B", [("gap", "3")])].
Example C10_own_parent_case :
  alloy loop_db "A" "A" "B" "In" /\ defines_not loop_db "A" "gap" /\
  defines_not loop_db "Final Calculables" "gap" /\ lookup [("In", 1)] "In" = Some 1.
Proof. repeat split; try (now apply opt_some); now apply opt_none. Qed.

(** What does loop is a calculable that asks for itself. *)
Theorem C10_self_reference_diverges :
  forall db parse si builtin m p text o,
    known db m -> defines db "Final Calculables" p text -> defines_not db m p ->
    mentions_T (fst (cut text)) = false -> lookup o "get" = None ->
    parse (fst (cut text)) = Ok (EGet p) ->
    forall f, get_parameter db parse si builtin f m p o = None.
Proof.
  intros db parse si builtin m p text o Hk Hd Hn HT Hg Hp. induction f as [|f IH]; [reflexivity|]. simpl.
  unfold known in Hk. destruct (lookup db m); [|congruence]. apply opt_some in Hd. apply opt_none in Hn.
  rewrite Hd, Hn. unfold eval_string. destruct (cut text) as [h u]. simpl in *. rewrite HT, Hp. simpl.
  now rewrite Hg, IH.
Qed.
Print Assumptions C10_self_reference_diverges.
Example C10_self_case :
  let db := [("A", []); ("Final Calculables", [("gap", "get('gap')")])] in
  known db "A" /\ defines db "Final Calculables" "gap" "get('gap')" /\ defines_not db "A" "gap" /\
  mentions_T (fst (cut "get('gap')")) = false.
Proof. repeat split; [discriminate|now apply opt_some|now apply opt_none]. Qed.

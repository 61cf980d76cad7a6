(** Termination of the parser on texts without curly brackets. *)
From Verif Require Import Base LexM ParseM SpecParse Lex_P Parse_P.
From Coq Require Import Ascii.
Import List.

(** What is left of a stream. *)
Definition sub (s' s : stream) : Prop := incl s' s /\ List.length s' <= List.length s.
Definition sub1 (s' s : stream) : Prop := incl s' s /\ List.length s' < List.length s.

Lemma sub_refl s : sub s s.
Proof. split; [apply incl_refl|lia]. Qed.
Lemma sub_trans a b c : sub a b -> sub b c -> sub a c.
Proof. intros [I L] [J M]. split; [eapply incl_tran; eauto|lia]. Qed.
Lemma sub1_l a b c : sub1 a b -> sub b c -> sub1 a c.
Proof. intros [I L] [J M]. split; [eapply incl_tran; eauto|lia]. Qed.
Lemma sub1_r a b c : sub a b -> sub1 b c -> sub1 a c.
Proof. intros [I L] [J M]. split; [eapply incl_tran; eauto|lia]. Qed.
Lemma sub1_sub a b : sub1 a b -> sub a b.
Proof. intros [I L]. split; [exact I|lia]. Qed.

Lemma tl_sub (s : stream) : sub (tl s) s.
Proof. destruct s; [apply sub_refl|]. split; [apply incl_tl, incl_refl|cbn; lia]. Qed.
Lemma tl_sub1 x (s : stream) : sub1 (tl (x :: s)) (x :: s).
Proof. split; [apply incl_tl, incl_refl|cbn; lia]. Qed.

Lemma advance_tl s s' : advance s = Ok s' -> s' = tl s.
Proof. unfold advance. destruct (raised _); [discriminate|]. intros E. injection E as <-. reflexivity. Qed.

Lemma advance_sub s s' : advance s = Ok s' -> sub s' s.
Proof. intros E. apply advance_tl in E. subst. apply tl_sub. Qed.

Lemma advance_sub1 s s' t : tok 0 s = Some t -> advance s = Ok s' -> sub1 s' s.
Proof.
  intros T E. apply advance_tl in E. subst. destruct s; [discriminate|]. apply tl_sub1.
Qed.

Lemma cur_tok s t : cur s = Ok t -> tok 0 s = Some t.
Proof. unfold cur. destruct (tok 0 s); [intros E; congruence|discriminate]. Qed.

Lemma skip_sub s : forall s', skip_white s = Ok s' -> sub s' s.
Proof.
  induction s as [|x s IH]; intros s' E; [discriminate|].
  cbn [skip_white] in E.
  assert (Same : (do _ <- cur (x :: s); Ok (x :: s)) = Ok s' -> sub s' (x :: s)).
  { intros F. destruct (cur (x :: s)); [|discriminate]. injection F as <-. apply sub_refl. }
  destruct x as [[]|]; try (apply Same, E).
  destruct (advance (Ok TWhitespace :: s)) as [u|]; [|discriminate].
  cbn [rbind] in E. eapply sub_trans; [apply IH, E|apply (tl_sub (Ok TWhitespace :: s))].
Qed.

(** A result that was not there before was read. *)
Definition read1 (r r0 : node) (s' s : stream) : Prop :=
  (r = r0 /\ sub s' s) \/ sub1 s' s.

Definition shrink (n : nat) : Prop :=
  (forall a s r s', p_expr n a s = Ok (r, s') -> read1 r NNone s' s)
  /\ (forall a r0 s r s', p_expr_loop n a r0 s = Ok (r, s') -> read1 r r0 s' s)
  /\ (forall s r s', p_term n s = Ok (r, s') -> read1 r NNone s' s)
  /\ (forall r0 s r s', p_term_loop n r0 s = Ok (r, s') -> read1 r r0 s' s)
  /\ (forall acc s r s', p_list n acc s = Ok (r, s') -> sub s' s)
  /\ (forall ks vs s r s', p_assoc n ks vs s = Ok (r, s') -> sub s' s)
  /\ (forall s r s', p_factor n s = Ok (r, s') -> read1 r NNone s' s)
  /\ (forall f args s r s', p_func n f args s = Ok (r, s') -> sub s' s)
  /\ (forall arg s r s', p_args n arg s = Ok (r, s') -> sub s' s).

Lemma read1_sub r r0 s' s : read1 r r0 s' s -> sub s' s.
Proof. intros [[_ H]|H]; [exact H|apply sub1_sub, H]. Qed.

Lemma read1_refl r s : read1 r r s s.
Proof. left. split; [reflexivity|apply sub_refl]. Qed.

Lemma read1_pre r r0 s'' s' s : read1 r r0 s'' s' -> sub s' s -> read1 r r0 s'' s.
Proof.
  intros [[E H]|H] K; [left; split; [exact E|eapply sub_trans; eauto]|].
  right. eapply sub1_l; eauto.
Qed.

Lemma read1_strict r r0 s' s : sub1 s' s -> read1 r r0 s' s.
Proof. intros H. right. exact H. Qed.

Lemma read1_chain r r1 r0 s'' s' s :
  read1 r r1 s'' s' -> read1 r1 r0 s' s -> read1 r r0 s'' s.
Proof.
  intros [[E H]|H] K.
  - destruct K as [[F K]|K].
    + left. split; [congruence|eapply sub_trans; eauto].
    + right. eapply sub1_r; eauto.
  - right. eapply sub1_l; [exact H|apply read1_sub in K; exact K].
Qed.

Lemma bind_ok {A B : Type} (r : res A) (f : A -> res B) y :
  rbind r f = Ok y -> exists x, r = Ok x /\ f x = Ok y.
Proof. destruct r; [eauto|discriminate]. Qed.

Ltac step H :=
  match type of H with
  | (do _ <- ?x; _) = Ok _ =>
      let E := fresh "E" in let a := fresh "a" in
      apply bind_ok in H as (a & E & H); cbv beta in H
  | (let (_, _) := ?p in _) = Ok _ =>
      let x := fresh "x" in let s := fresh "s" in destruct p as [x s]
  | Ok _ = Ok _ => injection H; intros; subst; clear H
  | Err _ = Ok _ => discriminate H
  end.

Lemma shrink_all n : shrink n.
Proof.
  induction n as [|n (H1 & H2 & H3 & H4 & H5 & H6 & H7 & H8 & H9)];
    [repeat split; intros; discriminate|].
  split; [|split; [|split; [|split; [|split; [|split; [|split; [|split]]]]]]].
  - (* expr *)
    intros a s r s' H. cbn [p_expr] in H. repeat step H.
    apply H3 in E. apply H2 in H. eapply read1_chain; eassumption.
  - (* the loop of expr *)
    intros a r0 s r s' H. cbn [p_expr_loop] in H.
    destruct (tok 0 s) as [t|] eqn:T; [|repeat step H; apply read1_refl].
    assert (go : forall s1 s2 r1, advance s = Ok s1 -> sub s2 s1 ->
              p_expr_loop n a r1 s2 = Ok (r, s') -> read1 r r0 s' s).
    { intros s1 s2 r1 A B L. right.
      apply (advance_sub1 _ _ _ T) in A. apply H2 in L. apply read1_sub in L.
      eapply sub1_r; [|exact A]. eapply sub_trans; eassumption. }
    destruct t; try (repeat step H; apply read1_refl).
    + repeat step H. eapply go; [eassumption|eapply read1_sub, H3; eassumption|exact H].
    + repeat step H. eapply go; [eassumption|eapply read1_sub, H3; eassumption|exact H].
    + repeat step H. eapply go; [eassumption|eapply H5; eassumption|exact H].
    + repeat step H. eapply go; [eassumption|eapply H6; eassumption|exact H].
    + destruct a; [repeat step H; apply read1_refl|]. repeat step H.
      eapply go; [eassumption|eapply read1_sub, H1; eassumption|exact H].
    + repeat step H. eapply go; [eassumption|apply sub_refl|exact H].
  - (* term *)
    intros s r s' H. cbn [p_term] in H. repeat step H.
    apply skip_sub in E. apply H7 in E0. apply H4 in H.
    eapply read1_chain; [exact H|]. eapply read1_pre; eassumption.
  - (* the loop of term *)
    intros r0 s r s' H. cbn [p_term_loop] in H.
    destruct (tok 0 s) as [t|] eqn:T; [|repeat step H; apply read1_refl].
    assert (go : forall s1 s2 r1, advance s = Ok s1 -> sub s2 s1 ->
              p_term_loop n r1 s2 = Ok (r, s') -> read1 r r0 s' s).
    { intros s1 s2 r1 A B L. right.
      apply (advance_sub1 _ _ _ T) in A. apply H4 in L. apply read1_sub in L.
      eapply sub1_r; [|exact A]. eapply sub_trans; eassumption. }
    destruct t; try (repeat step H; apply read1_refl).
    + repeat step H. eapply go; [eassumption|eapply read1_sub, H7; eassumption|exact H].
    + repeat step H. eapply go; [eassumption|eapply read1_sub, H7; eassumption|exact H].
    + destruct (starts_factor (tok 1 s)); repeat step H.
      * eapply go; [eassumption|eapply read1_sub, H7; eassumption|exact H].
      * eapply go; [eassumption|apply sub_refl|exact H].
  - (* list *)
    intros acc s r s' H. cbn [p_list] in H. step H.
    assert (go : (do s0 <- skip_white s;
       do (a0, s1) <- p_expr n false s0;
       do t2 <- cur s1;
       do s2 <- match t2 with TComma => advance s1 | _ => Ok s1 end;
       p_list n (acc ++ [a0]) s2) = Ok (r, s') -> sub s' s).
    { clear H. intros H. do 3 step H.
      destruct (cur s0) as [t2|]; [|discriminate]. cbn [rbind] in H.
      assert (K : exists s2, sub s2 s0 /\ p_list n (acc ++ [x]) s2 = Ok (r, s')).
      { destruct t2; try (exists s0; split; [apply sub_refl|exact H]).
        step H. eexists. split; [eapply advance_sub; eassumption|exact H]. }
      destruct K as (s2 & K1 & K2). apply H5 in K2.
      apply skip_sub in E0. apply H1, read1_sub in E1.
      eapply sub_trans; [exact K2|]. eapply sub_trans; [exact K1|].
      eapply sub_trans; eassumption. }
    destruct a; try (apply go, H). step H. apply sub_refl.
  - (* assoc *)
    intros ks vs s r s' H. cbn [p_assoc] in H. step H.
    match type of H with
    | match _ with TRassoc => _ | TPlus => ?x | _ => _ end = _ => 
      assert (go : x = Ok (r, s') -> sub s' s)
    end.
    { clear H. intros H. do 5 step H.
      apply bind_ok in H as ([v s2] & V & H). cbv beta iota in H.
      assert (V2 : sub s2 a1).
      { destruct a2; try (repeat step V; apply sub_refl).
        apply bind_ok in V as (s3 & V1 & V). apply bind_ok in V as (s4 & V2 & V).
        apply H1, read1_sub in V. apply skip_sub in V2. apply advance_sub in V1.
        eapply sub_trans; [exact V|]. eapply sub_trans; eassumption. }
      destruct (truthy x && truthy v); [|discriminate].
      apply bind_ok in H as (t3 & T3 & H).
      assert (K : exists s3, sub s3 s2 /\ p_assoc n (ks ++ [x]) (vs ++ [v]) s3 = Ok (r, s')).
      { destruct t3; try (exists s2; split; [apply sub_refl|exact H]).
        step H. eexists. split; [eapply advance_sub; eassumption|exact H]. }
      destruct K as (s3 & K1 & K2). apply H6 in K2.
      apply skip_sub in E0, E2. apply H1, read1_sub in E1.
      eapply sub_trans; [exact K2|]. eapply sub_trans; [exact K1|].
      eapply sub_trans; [exact V2|]. eapply sub_trans; [exact E2|].
      eapply sub_trans; eassumption. }
    destruct a; try (apply go, H). step H. apply sub_refl.
  - (* factor *)
    intros s r s' H. rewrite p_factor_eq in H. step H. step H. step H. step H.
    apply skip_sub in E. apply cur_tok in E0.
    assert (A1 : read1 x NNone s0 a).
    { clear H. unfold fhead in E1.
      assert (adv : forall s1, advance a = Ok s1 -> sub1 s1 a)
        by (intros s1; apply (advance_sub1 _ _ _ E0)).
      destruct a0; try (repeat step E1; apply read1_refl).
      - (* word *)
        destruct (tok 1 a) as [[]|]; try (repeat step E1; right; solve [auto]).
        repeat step E1. right. eapply sub1_r; [eapply H8; eassumption|auto].
      - repeat step E1. right. eapply sub1_r; [eapply read1_sub, H7; eassumption|auto].
      - repeat step E1. right. eapply sub1_r; [eapply read1_sub, H7; eassumption|auto].
      - (* parentheses *)
        repeat step E1. destruct a1; try discriminate E1. repeat step E1.
        right. apply advance_sub in E5. eapply sub1_r; [exact E5|].
        eapply sub1_r; [eapply read1_sub, H1; eassumption|auto].
      - repeat step E1. destruct a1; try discriminate E1. repeat step E1.
        right. apply advance_sub in E5. eapply sub1_r; [exact E5|].
        eapply sub1_r; [eapply H5; eassumption|auto].
      - repeat step E1. destruct a1; try discriminate E1. repeat step E1.
        right. apply advance_sub in E5. eapply sub1_r; [exact E5|].
        eapply sub1_r; [eapply H6; eassumption|auto].
      - (* command *)
        do 2 step E1.
        destruct a1; try (repeat step E1; right; solve [auto]).
        match type of E1 with match ?x with _ => _ end = _ => destruct x as [[]|] end;
          try discriminate E1; try (repeat step E1; right; solve [auto]).
        step E1. cbv zeta in E1. repeat step E1.
        right. repeat match goal with A : advance _ = Ok _ |- _ => first [apply adv in A | apply advance_sub in A] end.
        eapply sub1_r; [eassumption|]. eapply sub1_r; [eassumption|].
        eapply sub1_r; [eassumption|assumption].
      - repeat step E1. right. auto. }
    assert (A2 : forall r1 s1, pow1 n x s0 = Ok (r1, s1) -> read1 r1 x s1 s0).
    { unfold pow1. intros r1 s1 P. destruct (tok 0 s0) as [[]|] eqn:T;
        try (repeat step P; apply read1_refl).
      repeat step P. right. eapply sub1_r; [eapply read1_sub, H7; eassumption|].
      eapply advance_sub1; eassumption. }
    step H. step H. specialize (A2 _ _ E2).
    assert (A3 : read1 r x0 s' s1).
    { unfold pow2 in H. destruct (tok 0 s1) as [[]|] eqn:T;
        try (repeat step H; apply read1_refl).
      destruct (tok 1 s1) as [[]|]; try (repeat step H; apply read1_refl).
      repeat step H. right. eapply sub1_r; [eapply read1_sub, H7; eassumption|].
      eapply sub1_r; [eapply advance_sub; eassumption|].
      eapply advance_sub1; eassumption. }
    eapply read1_chain; [exact A3|]. eapply read1_chain; [exact A2|].
    eapply read1_pre; [exact A1|exact E].
  - (* func *)
    intros f args s r s' H. cbn [p_func] in H.
    destruct (tok 0 s) as [[]|] eqn:T; try (repeat step H; apply sub_refl).
    do 6 step H.
    assert (K : exists s2, sub s2 s1 /\ p_func n f (args ++ [x0]) s2 = Ok (r, s')).
    { destruct a0; try (exists s1; split; [apply sub_refl|exact H]).
      step H. eexists. split; [eapply advance_sub; eassumption|exact H]. }
    destruct K as (s2 & K1 & K2). apply H8 in K2.
    eapply sub_trans; [exact K2|]. eapply sub_trans; [exact K1|].
    apply advance_sub in E. apply H1, read1_sub in E0. apply H9 in E1.
    eapply sub_trans; [exact E1|]. eapply sub_trans; eassumption.
  - (* args *)
    intros arg s r s' H. cbn [p_args] in H. step H.
    destruct a; try (repeat step H; apply sub_refl).
    repeat step H. apply H9 in H. apply advance_sub in E0. apply H1, read1_sub in E1.
    eapply sub_trans; [exact H|]. eapply sub_trans; eassumption.
Qed.

(** ** Enough fuel *)
Definition calm (s : stream) : Prop := ~ In (Err EFuel) s /\ ~ In (Ok TLcurl) s.

Lemma calm_sub s' s : calm s -> sub s' s -> calm s'.
Proof. intros [A B] [I _]. split; intros J; [apply A|apply B]; apply I, J. Qed.

Definition fine {A : Type} (r : res A) : Prop := r <> Err EFuel.

Lemma fine_ok {A : Type} (a : A) : fine (Ok a).
Proof. discriminate. Qed.

Lemma fine_bind {A B : Type} (r : res A) (f : A -> res B) :
  fine r -> (forall a, r = Ok a -> fine (f a)) -> fine (rbind r f).
Proof.
  intros F G. destruct r as [a|e]; [apply G; reflexivity|].
  intros E. apply F. cbn in E. congruence.
Qed.

Lemma fine_advance s : calm s -> fine (advance s).
Proof.
  intros [C _] E. apply C. unfold advance in E.
  destruct (nth_error (tl s) 2) as [[t|e]|] eqn:N; cbn [raised] in E; try discriminate.
  injection E as ->. apply nth_error_In in N. destruct s; [contradiction|right; exact N].
Qed.

Lemma fine_cur s : fine (cur s).
Proof. unfold cur. destruct (tok 0 s); discriminate. Qed.

Lemma fine_skip s : calm s -> fine (skip_white s).
Proof.
  induction s as [|x s IH]; intros C; [discriminate|].
  cbn [skip_white].
  assert (Same : fine (do _ <- cur (x :: s); Ok (x :: s))).
  { apply fine_bind; [apply fine_cur|intros; apply fine_ok]. }
  destruct x as [[]|]; try exact Same.
  apply fine_bind; [apply fine_advance, C|]. intros _ _.
  apply IH. eapply calm_sub; [exact C|apply (tl_sub (Ok TWhitespace :: s))].
Qed.

Lemma calm_no_curl s : calm s -> tok 0 s = Some TLcurl -> False.
Proof.
  intros [_ C] T. destruct s as [|[t|] s]; try discriminate T.
  injection T as ->. apply C. left. reflexivity.
Qed.

Definition enough (n : nat) : Prop :=
  (forall a s, calm s -> 4 * List.length s + 3 <= n -> fine (p_expr n a s))
  /\ (forall a r0 s, calm s -> 4 * List.length s + 1 <= n -> fine (p_expr_loop n a r0 s))
  /\ (forall s, calm s -> 4 * List.length s + 2 <= n -> fine (p_term n s))
  /\ (forall r0 s, calm s -> 4 * List.length s + 1 <= n -> fine (p_term_loop n r0 s))
  /\ (forall ks vs s, calm s -> 4 * List.length s + 4 <= n -> fine (p_assoc n ks vs s))
  /\ (forall s, calm s -> 4 * List.length s + 1 <= n -> fine (p_factor n s))
  /\ (forall f args s, calm s -> 4 * List.length s + 1 <= n -> fine (p_func n f args s))
  /\ (forall arg s, calm s -> 4 * List.length s + 1 <= n -> fine (p_args n arg s)).

Ltac lens :=
  repeat match goal with
  | H : sub _ _ |- _ => destruct H as [? H]
  | H : sub1 _ _ |- _ => destruct H as [? H]
  end; lia.

Lemma enough_all n : enough n.
Proof.
  induction n as [|n (H1 & H2 & H3 & H4 & H6 & H7 & H8 & H9)];
    [repeat split; intros; lia|].
  destruct (shrink_all n) as (S1 & S2 & S3 & S4 & S5 & S6 & S7 & S8 & S9).
  assert (adv : forall s t s1, calm s -> tok 0 s = Some t -> advance s = Ok s1 ->
            calm s1 /\ sub1 s1 s).
  { intros s t s1 C T A. pose proof (advance_sub1 _ _ _ T A) as B.
    split; [eapply calm_sub; [exact C|apply sub1_sub, B]|exact B]. }
  split; [|split; [|split; [|split; [|split; [|split; [|split]]]]]].
  - intros a s C L. cbn [p_expr]. apply fine_bind; [apply H3; [exact C|lia]|].
    intros [r s1] E. apply S3, read1_sub in E. apply H2; [eapply calm_sub; eauto|lens].
  - intros a r0 s C L. cbn [p_expr_loop].
    destruct (tok 0 s) as [t|] eqn:T; [|apply fine_ok].
    assert (go : forall (k : node -> node) (g : stream -> res (node * stream)),
      (forall s1 r s2, g s1 = Ok (r, s2) -> sub s2 s1) ->
      (forall s1, calm s1 -> 4 * List.length s1 + 4 <= n -> fine (g s1)) ->
      fine (do s <- advance s; do (b, s) <- g s; p_expr_loop n a (k b) s)).
    { intros k g G1 G2. apply fine_bind; [apply fine_advance, C|]. intros s1 A.
      destruct (adv _ _ _ C T A) as [C1 U1].
      apply fine_bind; [apply G2; [exact C1|lens]|]. intros [b s2] E.
      apply G1 in E. apply H2; [eapply calm_sub; eauto|lens]. }
    destruct t; try apply fine_ok.
    + apply (go (fun b => NAdd r0 b)).
      * intros s1 r s2 E. eapply read1_sub, S3, E.
      * intros s1 C1 L1. apply H3; [exact C1|lia].
    + apply (go (fun b => NSub r0 b)).
      * intros s1 r s2 E. eapply read1_sub, S3, E.
      * intros s1 C1 L1. apply H3; [exact C1|lia].
    + exfalso. eapply calm_no_curl; eassumption.
    + apply (go (fun b => b)).
      * intros s1 r s2 E. eapply S6, E.
      * intros s1 C1 L1. apply H6; [exact C1|lia].
    + destruct a; [apply fine_ok|]. apply (go (fun b => NEq r0 b)).
      * intros s1 r s2 E. eapply read1_sub, S1, E.
      * intros s1 C1 L1. apply H1; [exact C1|lia].
    + apply fine_bind; [apply fine_advance, C|]. intros s1 A.
      destruct (adv _ _ _ C T A) as [C1 U1]. apply H2; [exact C1|lens].
  - intros s C L. cbn [p_term]. apply fine_bind; [apply fine_skip, C|].
    intros s1 E. apply skip_sub in E.
    apply fine_bind; [apply H7; [eapply calm_sub; eauto|lens]|].
    intros [r s2] F. apply S7, read1_sub in F.
    assert (U : sub s2 s) by (eapply sub_trans; eauto).
    apply H4; [eapply calm_sub; eauto|lens].
  - intros r0 s C L. cbn [p_term_loop].
    destruct (tok 0 s) as [t|] eqn:T; [|apply fine_ok].
    assert (go : forall (k : node -> node),
      fine (do s <- advance s; do (b, s) <- p_factor n s; p_term_loop n (k b) s)).
    { intros k. apply fine_bind; [apply fine_advance, C|]. intros s1 A.
      destruct (adv _ _ _ C T A) as [C1 U1].
      apply fine_bind; [apply H7; [exact C1|lens]|]. intros [b s2] E.
      apply S7, read1_sub in E. apply H4; [eapply calm_sub; eauto|lens]. }
    destruct t; try apply fine_ok.
    + apply (go (fun b => NMul r0 b)).
    + apply (go (fun b => NDiv r0 b)).
    + destruct (starts_factor (tok 1 s)); [apply (go (fun b => NMul r0 b))|].
      apply fine_bind; [apply fine_advance, C|]. intros s1 A.
      destruct (adv _ _ _ C T A) as [C1 U1]. apply H4; [exact C1|lens].
  - (* assoc: a key that is not None was read *)
    intros ks vs s C L. cbn [p_assoc]. apply fine_bind; [apply fine_cur|].
    intros t T. apply cur_tok in T.
    match goal with
    | |- fine match _ with TRassoc => _ | TPlus => ?x | _ => _ end =>
      assert (go : fine x); [|destruct t; try exact go; apply fine_ok]
    end.
    apply fine_bind; [apply fine_skip, C|]. intros s1 E1. apply skip_sub in E1.
    assert (C1 : calm s1) by (eapply calm_sub; eauto).
    apply fine_bind; [apply H1; [exact C1|lens]|]. intros [k s2] E2.
    apply S1 in E2. pose proof (read1_sub _ _ _ _ E2) as U2.
    assert (C2 : calm s2) by (eapply calm_sub; eauto).
    apply fine_bind; [apply fine_skip, C2|]. intros s3 E3. apply skip_sub in E3.
    assert (C3 : calm s3) by (eapply calm_sub; eauto).
    apply fine_bind; [apply fine_cur|]. intros t2 T2. apply cur_tok in T2.
    assert (V : forall v s4, match t2 with
                     | TArrow =>
                         do s <- advance s3; do s <- skip_white s; p_expr n true s
                     | _ => Ok (NNone, s3)
                     end = Ok (v, s4) -> sub s4 s3).
    { intros v s4 V. destruct t2; try (repeat step V; apply sub_refl).
      apply bind_ok in V as (s5 & V1 & V). apply bind_ok in V as (s6 & V2 & V).
      apply S1, read1_sub in V. apply skip_sub in V2. apply advance_sub in V1.
      eapply sub_trans; [exact V|]. eapply sub_trans; eassumption. }
    apply fine_bind.
    { destruct t2; try apply fine_ok.
      apply fine_bind; [apply fine_advance, C3|]. intros s4 A.
      destruct (adv _ _ _ C3 T2 A) as [C4 U4].
      apply fine_bind; [apply fine_skip, C4|]. intros s5 E5. apply skip_sub in E5.
      apply H1; [eapply calm_sub; eauto|lens]. }
    intros [v s4] E4. apply V in E4.
    assert (C4 : calm s4) by (eapply calm_sub; eauto).
    destruct (truthy k) eqn:K; [|cbn [andb]; discriminate].
    destruct (truthy v); cbn [andb]; [|discriminate].
    assert (U : sub1 s2 s1).
    { destruct E2 as [[Q _]|Q]; [subst k; discriminate|exact Q]. }
    apply fine_bind; [apply fine_cur|]. intros t3 T3. apply cur_tok in T3.
    apply fine_bind.
    { destruct t3; try apply fine_ok. apply fine_advance, C4. }
    intros s5 E5.
    assert (U5 : sub s5 s4).
    { destruct t3; try (injection E5 as <-; apply sub_refl). apply advance_sub, E5. }
    apply H6; [eapply calm_sub; eauto|lens].
  - (* factor *)
    intros s C L. rewrite p_factor_eq.
    apply fine_bind; [apply fine_skip, C|]. intros s1 E1. apply skip_sub in E1.
    assert (C1 : calm s1) by (eapply calm_sub; eauto).
    apply fine_bind; [apply fine_cur|]. intros t T. apply cur_tok in T.
    assert (A1 : fine (fhead n t s1)).
    { unfold fhead.
      assert (go : forall (g : stream -> res (node * stream)) (h : node -> stream -> res (node * stream)),
        (forall s1, calm s1 -> 4 * List.length s1 + 4 <= n -> fine (g s1)) ->
        (forall b s2 s3, advance s1 = Ok s3 -> g s3 = Ok (b, s2) -> fine (h b s2)) ->
        fine (do s <- advance s1; do (b, s) <- g s; h b s)).
      { intros g h G1 G2. apply fine_bind; [apply fine_advance, C1|]. intros s2 A.
        destruct (adv _ _ _ C1 T A) as [C2 U2].
        apply fine_bind; [apply G1; [exact C2|lens]|].
        intros [b s3] E. eapply G2; eassumption. }
      destruct t; try apply fine_ok.
      - destruct (tok 1 s1) as [[]|];
          try (apply fine_bind; [apply fine_advance, C1|intros; apply fine_ok]).
        apply fine_bind; [apply fine_advance, C1|]. intros s2 A.
        destruct (adv _ _ _ C1 T A) as [C2 U2]. apply H8; [exact C2|lens].
      - apply (go (p_factor n) (fun a s => Ok (NPlus a, s))).
        + intros s2 C2 L2. apply H7; [exact C2|lia].
        + intros; apply fine_ok.
      - apply (go (p_factor n) (fun a s => Ok (NMinus a, s))).
        + intros s2 C2 L2. apply H7; [exact C2|lia].
        + intros; apply fine_ok.
      - eapply (go (p_expr n false)).
        + intros s2 C2 L2. apply H1; [exact C2|lia].
        + intros b s2 s3 A P. apply S1, read1_sub in P.
          destruct (adv _ _ _ C1 T A) as [C2 U2].
          apply fine_bind; [apply fine_cur|]. intros t2 _. destruct t2; try discriminate.
          apply fine_bind; [apply fine_advance; eapply calm_sub; eauto|intros; apply fine_ok].
      - exfalso. eapply calm_no_curl; eassumption.
      - eapply (go (p_assoc n [] [])).
        + intros s2 C2 L2. apply H6; [exact C2|lia].
        + intros b s2 s3 A P. apply S6 in P.
          destruct (adv _ _ _ C1 T A) as [C2 U2].
          apply fine_bind; [apply fine_cur|]. intros t2 _. destruct t2; try discriminate.
          apply fine_bind; [apply fine_advance; eapply calm_sub; eauto|intros; apply fine_ok].
      - apply fine_bind; [apply fine_advance, C1|]. intros s2 A.
        destruct (adv _ _ _ C1 T A) as [C2 U2].
        apply fine_bind; [apply fine_cur|]. intros t2 _.
        destruct t2; try apply fine_ok.
        destruct (tok 2 s2) as [[]|]; try apply fine_ok; try discriminate.
        apply fine_bind; [apply fine_advance, C2|]. intros s3 A3. apply advance_sub in A3.
        cbv zeta. assert (C3 : calm s3) by (eapply calm_sub; eauto).
        apply fine_bind; [apply fine_advance, C3|]. intros s4 A4. apply advance_sub in A4.
        assert (C4 : calm s4) by (eapply calm_sub; eauto).
        apply fine_bind; [apply fine_advance, C4|intros; apply fine_ok].
      - apply fine_bind; [apply fine_advance, C1|intros; apply fine_ok]. }
    apply fine_bind; [exact A1|]. intros [r s2] E2.
    assert (U2 : sub s2 s1).
    { unfold fhead in E2.
      destruct t; try (repeat step E2; first [apply sub_refl|eapply advance_sub; eassumption]).
      - destruct (tok 1 s1) as [[]|];
          try (repeat step E2; eapply advance_sub; eassumption).
        repeat step E2. eapply sub_trans; [eapply S8; eassumption|eapply advance_sub; eassumption].
      - repeat step E2. eapply sub_trans; [eapply read1_sub, S7; eassumption|eapply advance_sub; eassumption].
      - repeat step E2. eapply sub_trans; [eapply read1_sub, S7; eassumption|eapply advance_sub; eassumption].
      - apply bind_ok in E2 as (s3 & A3 & E2). apply bind_ok in E2 as ([b s4] & A4 & E2).
        cbv beta iota in E2. apply bind_ok in E2 as (t2 & _ & E2).
        destruct t2; try discriminate E2. repeat step E2.
        eapply sub_trans; [eapply advance_sub; eassumption|].
        eapply sub_trans; [eapply read1_sub, S1; eassumption|eapply advance_sub; eassumption].
      - exfalso. eapply calm_no_curl; eassumption.
      - apply bind_ok in E2 as (s3 & A3 & E2). apply bind_ok in E2 as ([b s4] & A4 & E2).
        cbv beta iota in E2. apply bind_ok in E2 as (t2 & _ & E2).
        destruct t2; try discriminate E2. repeat step E2.
        eapply sub_trans; [eapply advance_sub; eassumption|].
        eapply sub_trans; [eapply S6; eassumption|eapply advance_sub; eassumption].
      - apply bind_ok in E2 as (s3 & A3 & E2). apply bind_ok in E2 as (t2 & _ & E2).
        apply advance_sub in A3.
        destruct t2; try (repeat step E2; exact A3).
        destruct (tok 2 s3) as [[]|]; try discriminate E2; try (repeat step E2; exact A3).
        apply bind_ok in E2 as (s4 & A4 & E2). cbv zeta in E2.
        apply bind_ok in E2 as (s5 & A5 & E2). apply bind_ok in E2 as (s6 & A6 & E2).
        repeat step E2. apply advance_sub in A4, A5, A6.
        eapply sub_trans; [exact A6|]. eapply sub_trans; [exact A5|].
        eapply sub_trans; eassumption. }
    assert (C2 : calm s2) by (eapply calm_sub; eauto).
    apply fine_bind.
    { unfold pow1. destruct (tok 0 s2) as [[]|] eqn:T2; try apply fine_ok.
      apply fine_bind; [apply fine_advance, C2|]. intros s3 A.
      destruct (adv _ _ _ C2 T2 A) as [C3 U3].
      apply fine_bind; [apply H7; [exact C3|lens]|intros []; intros; apply fine_ok]. }
    intros [r1 s3] P1.
    assert (U3 : sub s3 s2).
    { unfold pow1 in P1. destruct (tok 0 s2) as [[]|] eqn:T2;
        try (repeat step P1; apply sub_refl).
      repeat step P1. eapply sub_trans; [eapply read1_sub, S7; eassumption|eapply advance_sub; eassumption]. }
    assert (C3 : calm s3) by (eapply calm_sub; eauto).
    unfold pow2. destruct (tok 0 s3) as [[]|] eqn:T3; try apply fine_ok.
    destruct (tok 1 s3) as [[]|]; try apply fine_ok.
    apply fine_bind; [apply fine_advance, C3|]. intros s4 A.
    destruct (adv _ _ _ C3 T3 A) as [C4 U4].
    apply fine_bind; [apply fine_advance, C4|]. intros s5 A5. apply advance_sub in A5.
    apply fine_bind; [apply H7; [eapply calm_sub; eauto|lens]|intros []; intros; apply fine_ok].
  - intros f args s C L. cbn [p_func].
    destruct (tok 0 s) as [[]|] eqn:T; try apply fine_ok.
    apply fine_bind; [apply fine_advance, C|]. intros s1 A.
    destruct (adv _ _ _ C T A) as [C1 U1].
    apply fine_bind; [apply H1; [exact C1|lens]|]. intros [b s2] E2.
    apply S1, read1_sub in E2. assert (C2 : calm s2) by (eapply calm_sub; eauto).
    apply fine_bind; [apply H9; [exact C2|lens]|]. intros [arg s3] E3.
    apply S9 in E3. assert (C3 : calm s3) by (eapply calm_sub; eauto).
    apply fine_bind; [apply fine_cur|]. intros t3 _.
    apply fine_bind.
    { destruct t3; try apply fine_ok. apply fine_advance, C3. }
    intros s4 E4.
    assert (U4 : sub s4 s3).
    { destruct t3; try (injection E4 as <-; apply sub_refl). apply advance_sub, E4. }
    apply H8; [eapply calm_sub; eauto|lens].
  - intros arg s C L. cbn [p_args]. apply fine_bind; [apply fine_cur|]. intros t T.
    apply cur_tok in T. destruct t; try apply fine_ok.
    apply fine_bind; [apply fine_advance, C|]. intros s1 A.
    destruct (adv _ _ _ C T A) as [C1 U1].
    apply fine_bind; [apply H1; [exact C1|lens]|]. intros [b s2] E2.
    apply S1, read1_sub in E2. apply H9; [eapply calm_sub; eauto|lens].
Qed.

(** Which texts the parser finishes, and on which it goes on for ever. *)
From Verif Require Import Base LexM ParseM InterpM SpecParse Lex_P Parse_P Doc_P Text_P Term_P.
From Coq Require Import Ascii.
Import List.

(** ** More fuel changes nothing but exhaustion *)
Definition rle {A : Type} (r r' : res A) : Prop := r = Err EFuel \/ r = r'.

Lemma rle_refl {A : Type} (r : res A) : rle r r.
Proof. right. reflexivity. Qed.

Lemma rle_bind {A B : Type} (r r' : res A) (f f' : A -> res B) :
  rle r r' -> (forall a, rle (f a) (f' a)) -> rle (rbind r f) (rbind r' f').
Proof.
  intros [->| ->] F; [left; reflexivity|]. destruct r' as [a|e]; [apply F|right; reflexivity].
Qed.

Definition grows (n m : nat) : Prop :=
  (forall a s, rle (p_expr n a s) (p_expr m a s))
  /\ (forall a r s, rle (p_expr_loop n a r s) (p_expr_loop m a r s))
  /\ (forall s, rle (p_term n s) (p_term m s))
  /\ (forall r s, rle (p_term_loop n r s) (p_term_loop m r s))
  /\ (forall acc s, rle (p_list n acc s) (p_list m acc s))
  /\ (forall ks vs s, rle (p_assoc n ks vs s) (p_assoc m ks vs s))
  /\ (forall s, rle (p_factor n s) (p_factor m s))
  /\ (forall f args s, rle (p_func n f args s) (p_func m f args s))
  /\ (forall arg s, rle (p_args n arg s) (p_args m arg s)).

Ltac grow :=
  first
  [ apply rle_refl
  | match goal with H : forall _, _ |- _ => solve [apply H] end
  | match goal with
    | |- rle (rbind _ _) (rbind _ _) => apply rle_bind; [grow|intros ?; grow]
    | |- rle (let (_, _) := ?p in _) _ => destruct p; grow
    | |- rle (match ?x with _ => _ end) _ => destruct x; grow
    end ].

Lemma grows_step n m : grows n m -> grows (S n) (S m).
Proof.
  intros (H1 & H2 & H3 & H4 & H5 & H6 & H7 & H8 & H9).
  split; [|split; [|split; [|split; [|split; [|split; [|split; [|split]]]]]]]; intros;
    cbn [p_expr p_expr_loop p_term p_term_loop p_list p_assoc p_factor p_func p_args]; grow.
Qed.

Lemma grows_all n : grows n (S n).
Proof.
  induction n as [|n IH]; [|apply grows_step, IH].
  repeat split; intros; left; reflexivity.
Qed.

Lemma parse_grows n s : rle (parse n s) (parse (S n) s).
Proof.
  unfold parse. apply rle_bind; [apply rle_refl|]. intros s1.
  destruct s1; [apply rle_refl|].
  apply rle_bind; [apply grows_all|]. intros p. apply rle_refl.
Qed.

Lemma parse_settles n s : parse n s <> Err EFuel ->
  settles (fun m => parse m s) (parse n s).
Proof.
  intros F. exists n. intros m L. induction L as [|m L IH]; [reflexivity|].
  destruct (parse_grows m s) as [E|E]; [congruence|]. rewrite <- E. exact IH.
Qed.

(** ** Without opening curly brackets *)
Lemma lex_no_curl n : forall l,
  ~ In "{"%char l -> ~ In (Ok TLcurl) (lex_loop n l).
Proof.
  induction n as [|n IH]; intros l L I.
  - destruct l; [exact I|]. destruct I as [I|[]]. discriminate.
  - destruct l as [|c l]; [exact I|].
    assert (Lt : ~ In "{"%char l) by (intros J; apply L; right; exact J).
    assert (Sk : forall k l, ~ In "{"%char l -> ~ In "{"%char (skipn k l)).
    { intros k m A J. apply A. rewrite <- (firstn_skipn k m). apply in_or_app. right. exact J. }
    assert (One : forall t, t <> TLcurl -> In (Ok TLcurl) (Ok t :: lex_loop n l) -> False).
    { intros t N [E|J]; [congruence|]. apply (IH l Lt J). }
    assert (Two : forall t, t <> TLcurl -> In (Ok TLcurl) (Ok t :: lex_loop n (skipn 1 l)) -> False).
    { intros t N [E|J]; [congruence|]. apply (IH (skipn 1 l) (Sk _ _ Lt) J). }
    unfold lex_loop in I; fold lex_loop in I.
    destruct (is_white c); [refine (One _ _ I); discriminate|].
    destruct ((c =? ".")%char || is_digit c || is_letter c).
    { destruct (generate_expr (c :: l)) as [t l2] eqn:E.
      unfold generate_expr in E. destruct (expr_loop 0 [] (c :: l)) as [v r] eqn:F.
      injection E as <- <-. destruct I as [I|I]; [discriminate|].
      revert I. apply IH. apply Sk.
      assert (G : forall m d acc v r, expr_loop d acc m = (v, r) -> incl r m).
      { clear. induction m as [|x m IHm]; intros d acc v r H; cbn [expr_loop] in H.
        - injection H as <- <-. apply incl_refl.
        - destruct (expr_goes_on m).
          + destruct (x =? ".")%char; [destruct (0 <? d)|].
            * injection H as <- <-. apply incl_refl.
            * apply IHm in H. apply incl_tl, H.
            * apply IHm in H. apply incl_tl, H.
          + injection H as <- <-. apply incl_refl. }
      intros J. apply L. eapply G; eassumption. }
    destruct (is_quote c || triple (c :: l)).
    { destruct (generate_str (c :: l)) as [[t l2]|e] eqn:E.
      - unfold generate_str in E.
        destruct (str_loop _ _ (skipn (if triple (c :: l) then 3 else 1) (c :: l)))
          as [v r] eqn:F.
        assert (G : forall m q acc v r, str_loop q acc m = (v, r) -> incl r m).
        { clear. induction m as [|x m IHm]; intros q acc v r H.
          - cbn [str_loop] in H. injection H as <- <-. apply incl_refl.
          - change (str_loop q acc (x :: m)) with
              (match m with
               | [] => (acc, x :: m)
               | n :: _ => if negb (match q with Some d => (n =? d)%char | None => false end)
                     && negb (triple (x :: m))
                  then str_loop q (acc ++ [x]) m else (acc, x :: m) end) in H.
            destruct m as [|y m].
            + injection H as <- <-. apply incl_refl.
            + destruct (negb _ && negb _).
              * apply IHm in H. apply incl_tl, H.
              * injection H as <- <-. apply incl_refl. }
        apply G in F. destruct r as [|z r]; [discriminate|].
        assert (T : t <> TLcurl) by congruence.
        assert (G2 : skipn (if triple (c :: l) then 3 else 1) (z :: r) = l2) by congruence.
        destruct I as [I|I]; [congruence|]. revert I. apply IH. apply Sk. rewrite <- G2.
        apply Sk. intros J. apply F in J. revert J. apply Sk. exact L.
      - destruct I as [I|[]]; discriminate. }
    assert (Hc : (c =? "{")%char = false).
    { apply Ascii.eqb_neq. intros ->. apply L. left. reflexivity. }
    rewrite Hc in I.
    repeat match type of I with
    | In _ (if ?b then Ok _ :: lex_loop n l else _) =>
        destruct b; [refine (One _ _ I); discriminate|]
    | In _ (if ?b then Ok _ :: lex_loop n (skipn 1 l) else _) =>
        destruct b; [refine (Two _ _ I); discriminate|]
    | In _ (if ?b then lex_loop n _ else _) =>
        destruct b; [apply (IH (skipn 1 l) (Sk _ _ Lt) I)|]
    | In _ (if false then _ else _) => cbv iota in I
    end.
    destruct I as [I|[]]; discriminate.
Qed.

Lemma parse_fine s : calm s -> parse (4 * List.length s + 3) s <> Err EFuel.
Proof.
  intros C. apply (fine_bind (A := stream) (start_parser s)).
  - destruct C as [C _]. unfold start_parser.
    assert (R : forall i e, raised (nth_error s i) = Some e -> e <> EFuel).
    { intros i e H E. subst e. destruct (nth_error s i) as [[|]|] eqn:N; try discriminate.
      cbn in H. injection H as ->. apply nth_error_In in N. contradiction. }
    destruct (raised (nth_error s 0)) eqn:E0; [intros E; injection E as ->; eapply R; eauto|].
    destruct (raised (nth_error s 1)) eqn:E1; [intros E; injection E as ->; eapply R; eauto|].
    destruct (raised (nth_error s 2)) eqn:E2; [intros E; injection E as ->; eapply R; eauto|].
    discriminate.
  - intros s1 E.
    assert (s1 = s).
    { unfold start_parser in E. destruct (raised (nth_error s 0)), (raised (nth_error s 1)),
        (raised (nth_error s 2)); congruence. }
    subst s1. destruct s as [|x s]; [discriminate|].
    apply fine_bind; [|intros [r s2] _; destruct s2; discriminate].
    apply enough_all; [exact C|lia].
Qed.

Lemma replace_incl n : forall pat l c, In c (replace_loop n pat [] l) -> In c l.
Proof.
  induction n as [|n IH]; intros pat l c I; [exact I|].
  destruct l as [|x l]; [exact I|]. cbn [replace_loop] in I.
  destruct (prefix_of pat (x :: l)).
  - cbn [app] in I. apply IH in I. rewrite <- (firstn_skipn (List.length pat) (x :: l)).
    apply in_or_app. right. exact I.
  - destruct I as [->|I]; [left; reflexivity|right; eapply IH, I].
Qed.

Lemma join_words_in l : forall w c, In c (join_words (words_loop w l)) ->
  c = " "%char \/ In c w \/ In c l.
Proof.
  assert (J : forall ws c, In c (join_words ws) -> c = " "%char \/ exists w, In w ws /\ In c w).
  { induction ws as [|w ws IH]; intros c I; [contradiction|].
    destruct ws as [|v ws].
    - right. exists w. cbn in *. auto.
    - change (In c (w ++ " "%char :: join_words (v :: ws))) in I.
      apply in_app_or in I as [I|[I|I]].
      + right. exists w. cbn; auto.
      + auto.
      + apply IH in I as [I|(u & U & I)]; [auto|]. right. exists u. cbn in *; auto. }
  assert (W : forall l w u c, In u (words_loop w l) -> In c u -> In c w \/ In c l).
  { clear. induction l as [|x l IH]; intros w u c U I; cbn [words_loop] in U.
    - destruct w; [contradiction|]. destruct U as [<-|[]]. auto.
    - destruct (is_space x).
      + destruct w as [|y w].
        * apply (IH _ _ c) in U; [|exact I]. destruct U as [[]|U]. cbn; auto.
        * destruct U as [<-|U]; [auto|]. apply (IH _ _ c) in U; [|exact I].
          destruct U as [[]|U]. cbn; auto.
      + apply (IH _ _ c) in U; [|exact I]. destruct U as [U|U]; [|cbn; auto].
        apply in_app_or in U as [U|[<-|[]]]; cbn; auto. }
  intros w c I. apply J in I as [I|(u & U & I)]; [auto|]. right. eapply W; eassumption.
Qed.

Lemma normalise_in l c : In c (normalise l) -> c = " "%char \/ In c l.
Proof.
  unfold normalise. intros I. apply join_words_in in I as [I|[[]|I]]; [auto|].
  right. eapply replace_incl, I.
Qed.

Theorem parse_terminates l : ~ In "{"%char l ->
  exists r, r <> Err EFuel
            /\ settles (fun n => parse n (lex (normalise l))) r.
Proof.
  intros H.
  assert (C : calm (lex (normalise l))).
  { split; [apply lex_no_fuel|]. apply lex_no_curl. intros I.
    apply normalise_in in I as [I|I]; [discriminate|contradiction]. }
  exists (parse (4 * List.length (lex (normalise l)) + 3) (lex (normalise l))).
  split; [apply parse_fine, C|]. apply parse_settles, parse_fine, C.
Qed.

(** ** A list that meets another closing bracket *)
Definition other_close (t : token) : bool :=
  match t with TRparen | TRbrace | TRassoc => true | _ => false end.

Lemma stuck_list t s : other_close t = true -> forall n acc,
  p_list n acc (Ok t :: s) = Err EFuel.
Proof.
  intros T. induction n as [|n IH]; intros acc; [reflexivity|].
  assert (X : p_expr n false (Ok t :: s) = Err EFuel
              \/ p_expr n false (Ok t :: s) = Ok (NNone, Ok t :: s)).
  { destruct n as [|[|[|n]]]; destruct t; try discriminate T; auto. }
  cbn [p_list].
  assert (K : skip_white (Ok t :: s) = Ok (Ok t :: s)) by (destruct t; try discriminate T; reflexivity).
  change (cur (Ok t :: s)) with (@Ok token t). cbn [rbind]. rewrite K. cbn [rbind].
  destruct t; try discriminate T; (destruct X as [X|X]; rewrite X; cbn [rbind]; [reflexivity|]);
    cbn; apply IH.
Qed.

Theorem stuck_parse t s : other_close t = true ->
  (forall e, ~ In (Err e) s) ->
  never_ends (fun n => parse n (Ok TLcurl :: Ok t :: s)).
Proof.
  intros T S n.
  assert (R : forall i, raised (nth_error s i) = None).
  { intros i. destruct (nth_error s i) as [[|e]|] eqn:N; try reflexivity.
    apply nth_error_In in N. destruct (S e N). }
  unfold parse, start_parser.
  change (nth_error (Ok TLcurl :: Ok t :: s) 0) with (Some (Ok TLcurl)).
  change (nth_error (Ok TLcurl :: Ok t :: s) 1) with (Some (@Ok token t)).
  change (nth_error (Ok TLcurl :: Ok t :: s) 2) with (nth_error s 0).
  rewrite (R 0). cbn [raised rbind].
  destruct n as [|[|[|n]]]; try reflexivity.
  change (p_expr (Datatypes.S (Datatypes.S (Datatypes.S n))) false (Ok TLcurl :: Ok t :: s))
    with (do (r, s1) <- p_term (Datatypes.S (Datatypes.S n)) (Ok TLcurl :: Ok t :: s);
          p_expr_loop (Datatypes.S (Datatypes.S n)) false r s1).
  change (p_term (Datatypes.S (Datatypes.S n)) (Ok TLcurl :: Ok t :: s))
    with (do (r, s1) <- p_factor (Datatypes.S n) (Ok TLcurl :: Ok t :: s);
          p_term_loop (Datatypes.S n) r s1).
  rewrite p_factor_eq.
  change (skip_white (Ok TLcurl :: Ok t :: s)) with (Ok (Ok TLcurl :: Ok t :: s)).
  cbn [rbind]. change (cur (Ok TLcurl :: Ok t :: s)) with (Ok TLcurl). cbn [rbind fhead].
  unfold advance. change (tl (Ok TLcurl :: Ok t :: s)) with (Ok t :: s).
  try change (nth_error (Ok TLcurl :: Ok t :: s) 3) with (nth_error s 1).
  try change (nth_error (Ok t :: s) 2) with (nth_error s 1).
  rewrite (R 1). cbn [rbind].
  rewrite stuck_list by exact T. reflexivity.
Qed.

(** parse_str on tidy texts. *)
From Verif Require Import Base LexM ParseM InterpM SpecParse Lex_P Parse_P Doc_P.
From Coq Require Import Ascii.
Import List.

Lemma space_is c : space c = is_space c.
Proof. revert c. apply same_chars. reflexivity. Qed.
Lemma single_cons p c l : single_spaces p (c :: l) =
  if is_space c then (c =? " ")%char && negb p && single_spaces true l else single_spaces false l.
Proof. cbn [single_spaces]. now rewrite space_is. Qed.


(** ** Replacing *)
Lemma replace_loop_id n : forall c pat new l,
  forallb (fun x => negb (x =? c)%char) l = true ->
  replace_loop n (c :: pat) new l = l.
Proof.
  induction n as [|n IH]; intros c pat new l H; [reflexivity|].
  destruct l as [|x l]; [reflexivity|].
  cbn [forallb] in H. apply andb_prop in H as [Hx H].
  cbn [replace_loop prefix_of]. apply negb_true_iff in Hx.
  rewrite Ascii.eqb_sym, Hx. cbn [andb]. rewrite IH by exact H. reflexivity.
Qed.

Lemma replace_id pat new l :
  no_backslash l = true -> hd_error pat = Some backslash -> replace pat new l = l.
Proof.
  intros H E. destruct pat as [|c pat]; [discriminate|]. cbn in E. injection E as ->.
  apply replace_loop_id, H.
Qed.

Lemma greek_id l : no_backslash l = true -> replace_greek_commands l = l.
Proof.
  intros H. unfold replace_greek_commands.
  assert (F : Forall (fun p => hd_error (chars (fst p)) = Some backslash) greek_commands).
  { unfold greek_commands. apply Forall_map. apply Forall_forall. intros [a b] _.
    reflexivity. }
  induction F as [|p ps Hp F IH]; [reflexivity|].
  cbn [fold_left]. rewrite replace_id by assumption. exact IH.
Qed.

(** ** Splitting and joining *)
Lemma join_cons w ws : ws <> [] -> join_words (w :: ws) = w ++ " "%char :: join_words ws.
Proof. destruct ws; [congruence|reflexivity]. Qed.

Lemma words_tidy l :
  (forall w, single_spaces false l = true -> w <> [] ->
     join_words (words_loop w l) = w ++ l)
  /\ (single_spaces true l = true ->
     join_words (words_loop [] l) = l /\ words_loop [] l <> []).
Proof.
  induction l as [|c l [IH1 IH2]]; split.
  - intros w _ N. cbn [words_loop]. destruct w; [congruence|]. cbn. rewrite app_nil_r. reflexivity.
  - cbn. discriminate.
  - intros w H N. rewrite single_cons in H. cbn [words_loop].
    destruct (is_space c) eqn:E.
    + apply andb_prop in H as [H H3]. apply andb_prop in H as [H1 H2].
      apply Ascii.eqb_eq in H1. subst c. destruct (IH2 H3) as [J K].
      destruct w as [|x w]; [congruence|]. rewrite join_cons by exact K. rewrite J. reflexivity.
    + rewrite IH1; [|exact H|destruct w; discriminate].
      rewrite <- app_assoc. reflexivity.
  - intros H. rewrite single_cons in H. cbn [words_loop].
    destruct (is_space c) eqn:E.
    + rewrite andb_false_r in H. discriminate.
    + cbn [app]. split; [rewrite IH1; [reflexivity|exact H|discriminate]|].
      clear -l. assert (G : forall w, w <> [] -> words_loop w l <> []).
      { induction l as [|d l IH]; intros w N; cbn [words_loop].
        - destruct w; [congruence|discriminate].
        - destruct (is_space d); [destruct w; [congruence|discriminate]|].
          apply IH. destruct w; discriminate. }
      apply G. discriminate.
Qed.

Lemma tidy_words l : single_spaces true l = true -> join_words (words_loop [] l) = l.
Proof. apply words_tidy. Qed.

Lemma normalise_id l :
  no_backslash l = true -> single_spaces true l = true -> normalise l = l.
Proof.
  intros H S. unfold normalise. rewrite replace_id by (try assumption; reflexivity).
  apply words_tidy, S.
Qed.

(** ** Written tokens are tidy *)
Fixpoint tidy_toks (p : bool) (ts : list token) : bool :=
  match ts with
  | [] => negb p
  | TWhitespace :: ts' => negb p && tidy_toks true ts'
  | _ :: ts' => tidy_toks false ts'
  end.

Definition plain_tok (t : token) : Prop :=
  match t with
  | TExpr v => word v
  | TString v => exists s, plain_name s /\ v = quoted s
  | _ => True
  end.

Lemma alnum_plain (c : ascii) : alnum c = true ->
  is_space c = false /\ (c =? backslash)%char = false.
Proof.
  intros H.
  pose proof (all_chars (fun c => implb (alnum c)
     (negb (is_space c) && negb (c =? backslash)%char)) eq_refl c) as G.
  cbv beta in G. rewrite H in G. cbn [implb] in G.
  apply andb_prop in G as [G1 G2]. apply negb_true_iff in G1, G2. auto.
Qed.

Lemma spaces_word v p rest : word v ->
  single_spaces p (v ++ rest) = single_spaces false rest.
Proof.
  intros [N H]. revert p N. induction v as [|c v IH]; intros p N; [congruence|].
  cbn [forallb] in H. apply andb_prop in H as [Hc H].
  cbn [app]; rewrite single_cons. rewrite (proj1 (alnum_plain c Hc)).
  destruct v as [|d v]; [reflexivity|]. apply IH; [exact H|discriminate].
Qed.

Lemma spaces_prefix s : forall p rest,
  single_spaces p (s ++ [dquote]) = true ->
  single_spaces p (s ++ dquote :: rest) = single_spaces false rest.
Proof.
  induction s as [|c s IH]; intros p rest H; [reflexivity|].
  cbn [app] in H |- *; rewrite single_cons in H |- *. destruct (is_space c).
  - apply andb_prop in H as [H H3]. rewrite H. cbn [andb]. apply IH, H3.
  - apply IH, H.
Qed.

Lemma spaces_tok t p rest : plain_tok t ->
  single_spaces p (show_tok t ++ rest)
  = match t with TWhitespace => negb p && single_spaces true rest
            | _ => single_spaces false rest end.
Proof.
  intros T. destruct t; try reflexivity.
  - apply spaces_word, T.
  - destruct T as (s & (_ & _ & S) & ->). cbn [show_tok]. unfold quoted.
    cbn [app]; rewrite single_cons. change (is_space dquote) with false. cbv iota.
    rewrite <- app_assoc. cbn [app]. apply spaces_prefix, S.
Qed.

Lemma spaces_toks ts : forall p, Forall plain_tok ts ->
  single_spaces p (show_toks ts) = tidy_toks p ts.
Proof.
  induction ts as [|t ts IH]; intros p F; [reflexivity|].
  inversion F; subst. rewrite show_cons, spaces_tok by assumption.
  destruct t; cbn [tidy_toks]; rewrite IH by assumption; reflexivity.
Qed.

(** The writing of an expression leaves no space open. *)
Lemma tidy_sp sp t p ts : t <> TWhitespace ->
  tidy_toks p (sp_toks sp t ++ ts)
  = (if sp then negb p && tidy_toks true ts else tidy_toks false ts).
Proof. intros H. destruct sp, t; try reflexivity; congruence. Qed.

Lemma tidy_comma sp p ts :
  tidy_toks p (comma_toks sp ++ ts) = tidy_toks sp ts.
Proof. destruct sp; reflexivity. Qed.

Lemma tidy_exp sp e : forall lvl p rest,
  tidy_toks p (toks sp lvl e ++ rest) = tidy_toks false rest.
Proof.
  assert (par : forall b ts, (forall p rest, tidy_toks p (ts ++ rest) = tidy_toks false rest) ->
            forall p rest, tidy_toks p (paren_toks b ts ++ rest) = tidy_toks false rest).
  { intros b ts H p rest. destruct b; [|apply H]. cbn [paren_toks app tidy_toks].
    rewrite <- app_assoc, H. reflexivity. }
  induction e using exp_rect2; intros lvl; cbn [toks].
  - reflexivity.
  - apply par. intros p rest. rewrite <- !app_assoc, IHe1, tidy_sp by discriminate.
    destruct sp; cbn [negb andb]; apply IHe2.
  - apply par. intros p rest. rewrite <- !app_assoc, IHe1, tidy_sp by discriminate.
    destruct sp; cbn [negb andb]; apply IHe2.
  - apply par. intros p rest. rewrite <- !app_assoc, IHe1. cbn [app tidy_toks]. apply IHe2.
  - apply par. intros p rest. rewrite <- !app_assoc, IHe1. cbn [app tidy_toks]. apply IHe2.
  - apply par. intros p rest. rewrite <- !app_assoc, IHe1. cbn [app tidy_toks]. apply IHe2.
  - apply par. intros p rest. cbn [app tidy_toks]. apply IHe.
  - intros p rest. cbn [app tidy_toks]. rewrite <- !app_assoc, IHe.
    induction H as [|x l Hx Hl IH]; [reflexivity|].
    cbn [flat_map]. rewrite <- !app_assoc, tidy_comma, Hx. exact IH.
  - reflexivity.
  - apply (par true). intros p rest. apply IHe.
  - apply par. intros p rest. rewrite <- !app_assoc, IHe1. cbn [app tidy_toks negb andb]. apply IHe2.
  - apply par. intros p rest. rewrite <- !app_assoc, IHe1, tidy_sp by discriminate.
    cbn [negb andb]. apply IHe2.
Qed.

Lemma plain_sp sp t : plain_tok t -> Forall plain_tok (sp_toks sp t).
Proof. intros H. destruct sp; repeat constructor; exact H. Qed.

Lemma plain_comma sp : Forall plain_tok (comma_toks sp).
Proof. destruct sp; repeat constructor. Qed.

Lemma plain_exp sp e : forall lvl, words_ok e -> Forall plain_tok (toks sp lvl e).
Proof.
  assert (par : forall b ts, Forall plain_tok ts -> Forall plain_tok (paren_toks b ts)).
  { intros b ts H. destruct b; [|exact H]. cbn [paren_toks]. constructor; [exact I|].
    apply Forall_app. split; [exact H|repeat constructor]. }
  induction e using exp_rect2; intros lvl W; cbn [toks]; cbn [words_ok] in W.
  - repeat constructor; apply W.
  - apply par. destruct W. apply Forall_app. split; [auto|]. apply Forall_app.
    split; [apply plain_sp; exact I|auto].
  - apply par. destruct W. apply Forall_app. split; [auto|]. apply Forall_app.
    split; [apply plain_sp; exact I|auto].
  - apply par. destruct W. apply Forall_app. split; [auto|]. constructor; [exact I|auto].
  - apply par. destruct W. apply Forall_app. split; [auto|]. constructor; [exact I|auto].
  - apply par. destruct W. apply Forall_app. split; [auto|]. constructor; [exact I|auto].
  - apply par. constructor; [exact I|auto].
  - destruct W as (W1 & W2 & W3). constructor; [exact W1|]. constructor; [exact I|].
    apply Forall_app. split; [auto|]. apply Forall_app. split; [|repeat constructor].
    apply fold_and in W3. clear W1 W2 IHe. induction H as [|x l Hx Hl IH]; [constructor|].
    inversion W3; subst. cbn [flat_map]. apply Forall_app. split; [|auto].
    apply Forall_app. split; [apply plain_comma|auto].
  - repeat constructor; apply W.
  - apply (par true). auto.
  - apply par. destruct W. apply Forall_app. split; [auto|]. constructor; [exact I|auto].
  - apply par. destruct W. apply Forall_app. split; [auto|]. apply Forall_app.
    split; [apply plain_sp; exact I|auto].
Qed.

Lemma tidy_sep sp l : Forall (fun ts => forall p rest, tidy_toks p (ts ++ rest) = tidy_toks false rest) l ->
  forall rest, tidy_toks false (sep_toks (comma_toks sp) l ++ rest) = tidy_toks false rest.
Proof.
  intros H rest. destruct l as [|x l]; [reflexivity|]. inversion H as [|? ? X L]; subst.
  cbn [sep_toks]. rewrite <- app_assoc, X. clear H X.
  induction L as [|y l Y L IH]; [reflexivity|].
  cbn [flat_map]. rewrite <- !app_assoc, tidy_comma, Y. exact IH.
Qed.

Lemma tidy_doc d : forall p rest,
  tidy_toks p (doc_toks d ++ rest) = tidy_toks false rest.
Proof.
  induction d using doc_rect2; intros p rest; cbn [doc_toks].
  - apply tidy_exp.
  - reflexivity.
  - rewrite <- !app_assoc, tidy_exp, tidy_sp by discriminate.
    destruct sp; cbn [negb andb]; apply tidy_exp.
  - cbn [app tidy_toks]. rewrite <- app_assoc. rewrite tidy_sep; [reflexivity|].
    apply Forall_map. exact H.
  - cbn [app tidy_toks]. rewrite <- app_assoc. rewrite tidy_sep; [reflexivity|].
    apply Forall_map. rewrite Forall_forall in *. intros x J q r.
    destruct (H x J) as [H1 H2].
    rewrite <- !app_assoc, H1, tidy_sp by discriminate.
    destruct sp; cbn [negb andb]; apply H2.
  - apply IHd.
Qed.

Lemma plain_sep sp l : Forall (Forall plain_tok) l ->
  Forall plain_tok (sep_toks (comma_toks sp) l).
Proof.
  intros H. destruct l as [|x l]; [constructor|]. inversion H as [|? ? X L]; subst.
  cbn [sep_toks]. apply Forall_app. split; [exact X|]. clear H X.
  induction L as [|y l Y L IH]; [constructor|].
  cbn [flat_map]. apply Forall_app. split; [|exact IH].
  apply Forall_app. split; [apply plain_comma|exact Y].
Qed.

Lemma plain_doc d : forall rule, doc_ok rule d -> names_plain d ->
  Forall plain_tok (doc_toks d).
Proof.
  induction d using doc_rect2; intros rule D N; cbn [doc_toks]; cbn [doc_ok] in D;
    cbn [names_plain] in N.
  - apply plain_exp, D.
  - repeat constructor. exists s. auto.
  - destruct D as (_ & A & B). apply Forall_app. split; [apply plain_exp, A|].
    apply Forall_app. split; [apply plain_sp; exact I|apply plain_exp, B].
  - constructor; [exact I|]. apply Forall_app. split; [|repeat constructor].
    apply plain_sep. apply Forall_map.
    apply fold_and in D. apply fold_and in N. rewrite Forall_forall in *.
    intros x J. eapply H; eauto.
  - constructor; [exact I|]. apply Forall_app. split; [|repeat constructor].
    apply plain_sep. apply Forall_map.
    apply fold_and2 in D. apply fold_and2 in N. rewrite Forall_forall in *.
    intros x J. destruct (H x J) as [H1 H2], (D x J) as [D1 D2], (N x J) as [N1 N2].
    apply Forall_app. split; [eauto|]. apply Forall_app.
    split; [apply plain_sp; exact I|eauto].
  - eauto.
Qed.

(** ** Removing the marks *)
Definition mark : text := chars "\\ReleaseHold".

Lemma replace_enough pat new n : pat <> [] -> forall m l,
  List.length l <= n -> List.length l <= m ->
  replace_loop n pat new l = replace_loop m pat new l.
Proof.
  intros N. induction n as [|n IH]; intros m l L M.
  - destruct l; [destruct m; reflexivity|cbn in L; lia].
  - destruct l as [|c l]; [destruct m; reflexivity|].
    destruct m as [|m]; [cbn in M; lia|]. cbn [List.length] in L, M. cbn [replace_loop].
    destruct pat as [|p pat]; [congruence|].
    destruct (prefix_of (p :: pat) (c :: l)).
    + f_equal. cbn [List.length skipn]. pose proof (skipn_length (List.length pat) l).
      apply IH; lia.
    + f_equal. apply IH; lia.
Qed.

(** The text [l] without its marks is [l'], whatever follows. *)
Definition clean (l l' : text) : Prop :=
  forall rest, replace mark [] (l ++ rest) = l' ++ replace mark [] rest.

Lemma clean_nil : clean [] [].
Proof. intros rest. reflexivity. Qed.

Lemma clean_app a a' b b' : clean a a' -> clean b b' -> clean (a ++ b) (a' ++ b').
Proof. intros A B rest. rewrite <- !app_assoc, A, B. reflexivity. Qed.

Lemma clean_mark : clean mark [].
Proof.
  intros rest. unfold replace.
  rewrite (replace_enough mark [] _ ltac:(discriminate) (S (List.length (mark ++ rest)))) by lia.
  assert (E : forall n l, replace_loop (S n) mark [] (mark ++ l) = replace_loop n mark [] l)
    by reflexivity.
  rewrite E. apply replace_enough; [discriminate| |lia]. rewrite app_length. lia.
Qed.

Lemma clean_char c : (c =? backslash)%char = false -> clean [c] [c].
Proof.
  intros C rest. cbn [app]. unfold replace. cbn [List.length replace_loop].
  change (prefix_of mark (c :: rest))
    with ((backslash =? c)%char && prefix_of (tl mark) rest).
  rewrite Ascii.eqb_sym, C. reflexivity.
Qed.

Lemma clean_plain l : no_backslash l = true -> clean l l.
Proof.
  induction l as [|c l IH]; intros H; [exact clean_nil|].
  unfold no_backslash in H. cbn [forallb] in H. apply andb_prop in H as [C H].
  apply negb_true_iff in C. apply (clean_app [c] [c] l l); [apply clean_char, C|apply IH, H].
Qed.

Lemma clean_command : clean (chars "\[") (chars "\[").
Proof.
  intros rest.
  change (backslash :: replace mark [] ("["%char :: rest)
          = backslash :: "["%char :: replace mark [] rest).
  f_equal.
Qed.

Lemma word_backslash v : word v -> no_backslash v = true.
Proof.
  intros [_ H]. unfold no_backslash. rewrite forallb_forall in *. intros c I.
  apply negb_true_iff. apply alnum_plain, H, I.
Qed.

Lemma clean_word v : word v -> clean v v.
Proof. intros H. apply clean_plain, word_backslash, H. Qed.

Lemma clean_spaced sp t : no_backslash t = true -> clean (spaced sp t) (spaced sp t).
Proof.
  intros H. apply clean_plain. destruct sp; [|exact H]. unfold no_backslash, spaced in *.
  rewrite !forallb_app, H. reflexivity.
Qed.

Lemma clean_comma sp : clean (comma sp) (comma sp).
Proof. apply clean_plain. destruct sp; reflexivity. Qed.

Lemma clean_exp sp e : forall lvl, words_ok e -> clean (show sp lvl e) (show sp lvl e).
Proof.
  assert (par : forall b t, clean t t -> clean (paren b t) (paren b t)).
  { intros b t H. destruct b; [|exact H]. unfold paren.
    apply clean_app; [apply clean_plain; reflexivity|].
    apply clean_app; [exact H|apply clean_plain; reflexivity]. }
  induction e using exp_rect2; intros lvl W; cbn [show]; cbn [words_ok] in W;
    try apply par; try destruct W as [W1 W2];
    try (apply clean_app; [auto|]; apply clean_app;
         [first [apply clean_spaced; reflexivity|apply clean_plain; reflexivity]|auto]; fail).
  - apply clean_word. split; assumption.
  - apply clean_app; [apply clean_plain; reflexivity|auto].
  - destruct W2 as [W2 W3]. apply clean_app; [apply clean_word, W1|].
    apply clean_app; [apply clean_plain; reflexivity|].
    apply clean_app; [auto|]. apply clean_app; [|apply clean_plain; reflexivity].
    apply fold_and in W3. clear W1 W2 IHe. induction H as [|x l Hx Hl IH]; [exact clean_nil|].
    inversion W3; subst. cbn [flat_map]. apply clean_app; [|auto].
    apply clean_app; [apply clean_comma|auto].
  - apply clean_app; [apply clean_command|].
    apply clean_app; [apply clean_word; split; assumption|apply clean_plain; reflexivity].
  - apply clean_app; [apply clean_plain; reflexivity|].
    apply clean_app; [auto|apply clean_plain; reflexivity].
Qed.

Lemma clean_sep sp (f g : doc -> text) l : Forall (fun x => clean (f x) (g x)) l ->
  clean (sep_by (comma sp) (map f l)) (sep_by (comma sp) (map g l)).
Proof.
  intros H. destruct H as [|x l X L]; [exact clean_nil|]. cbn [map sep_by].
  apply clean_app; [exact X|]. induction L as [|y l Y L IH]; [exact clean_nil|].
  cbn [map flat_map]. apply clean_app; [|exact IH]. apply clean_app; [apply clean_comma|exact Y].
Qed.

Lemma clean_sep2 sp (f g : doc * doc -> text) l : Forall (fun x => clean (f x) (g x)) l ->
  clean (sep_by (comma sp) (map f l)) (sep_by (comma sp) (map g l)).
Proof.
  intros H. destruct H as [|x l X L]; [exact clean_nil|]. cbn [map sep_by].
  apply clean_app; [exact X|]. induction L as [|y l Y L IH]; [exact clean_nil|].
  cbn [map flat_map]. apply clean_app; [|exact IH]. apply clean_app; [apply clean_comma|exact Y].
Qed.

Lemma clean_doc mk d : forall rule, doc_ok rule d -> names_plain d ->
  clean (show_doc mk d) (show_doc false d).
Proof.
  induction d using doc_rect2; intros rule D N; cbn [show_doc]; cbn [doc_ok] in D;
    cbn [names_plain] in N.
  - apply clean_exp, D.
  - apply clean_plain. destruct N as (_ & B & _). unfold quoted, no_backslash in *.
    cbn [forallb]. rewrite forallb_app, B. reflexivity.
  - destruct D as (_ & A & B). apply clean_app; [apply clean_exp, A|].
    apply clean_app; [apply clean_spaced; reflexivity|apply clean_exp, B].
  - apply clean_app; [apply clean_plain; reflexivity|].
    apply clean_app; [|apply clean_plain; reflexivity]. apply clean_sep.
    apply fold_and in D. apply fold_and in N. rewrite Forall_forall in *.
    intros x J. eapply H; eauto.
  - apply clean_app; [apply clean_plain; reflexivity|].
    apply clean_app; [|apply clean_plain; reflexivity]. apply clean_sep2.
    apply fold_and2 in D. apply fold_and2 in N. rewrite Forall_forall in *.
    intros x J. destruct (H x J) as [H1 H2], (D x J) as [D1 D2], (N x J) as [N1 N2].
    apply clean_app; [eauto|]. apply clean_app; [apply clean_spaced; reflexivity|eauto].
  - apply clean_app; [eauto|]. destruct mk; [exact clean_mark|exact clean_nil].
Qed.

Lemma normalise_doc mk d rule : doc_ok rule d -> names_plain d ->
  normalise (show_doc mk d) = show_doc false d.
Proof.
  intros D N. unfold normalise. change (chars "\\ReleaseHold") with mark.
  pose proof (clean_doc mk d rule D N []) as C. rewrite !app_nil_r in C. rewrite C.
  pose proof (plain_doc d rule D N) as P. apply tidy_words.
  rewrite <- show_toks_doc. rewrite spaces_toks by exact P.
  rewrite <- (app_nil_r (doc_toks d)). rewrite tidy_doc. reflexivity.
Qed.

Section Values.
Context {O : PyOps}.

Theorem read_doc mk d : doc_ok true d -> names_plain d ->
  settles (fun n => parse_str n (show_doc mk d)) (visit (doc_tree d)).
Proof.
  intros D N. unfold parse_str. rewrite (normalise_doc mk d true D N).
  apply (settles_bind _ (fun a _ => visit a) (doc_tree d)); [apply parse_doc, D|].
  apply settles_const.
Qed.

Theorem read_exp sp e : words_ok e ->
  settles (fun n => parse_str n (show sp 1 e)) (visit (tree e)).
Proof. intros W. apply (read_doc false (DExp sp e)); [exact W|exact I]. Qed.

Lemma literal_quoted s : quotable s -> no_backslash s = true ->
  single_spaces false (s ++ [dquote]) = true ->
  plain_quoted (quoted s) = Some s.
Proof.
  intros (N & Q & L) B S. unfold plain_quoted, quoted.
  change (is_quote dquote) with true. cbv iota. rewrite rev_app_distr. cbn [rev app].
  rewrite Ascii.eqb_refl. cbn [andb].
  assert (F : forallb (fun c => negb ((c =? dquote)%char || (c =? backslash)%char
                || (c =? "010")%char || (c =? "013")%char)) (rev s) = true).
  { apply forallb_forall. intros c I. apply in_rev in I.
    unfold no_backslash in B. rewrite forallb_forall in Q, B.
    pose proof (Q c I) as Qc. pose proof (B c I) as Bc.
    apply negb_true_iff in Qc, Bc. rewrite Qc, Bc. cbn [orb].
    assert (G : forall p, single_spaces p (s ++ [dquote]) = true ->
              negb ((c =? "010")%char || (c =? "013")%char) = true); [|exact (G _ S)].
    clear -I. induction s as [|x s IH]; intros p S; [contradiction|].
    cbn [app] in S; rewrite single_cons in S. destruct I as [->|I].
    - destruct ((c =? "010")%char) eqn:E1.
      { apply Ascii.eqb_eq in E1. subst c. vm_compute in S. discriminate. }
      destruct ((c =? "013")%char) eqn:E2.
      { apply Ascii.eqb_eq in E2. subst c. vm_compute in S. discriminate. }
      reflexivity.
    - destruct (is_space x).
      + apply andb_prop in S as [_ S]. eapply IH; eassumption.
      + eapply IH; eassumption. }
  rewrite F. rewrite rev_involutive. reflexivity.
Qed.

Theorem read_name s : plain_name s ->
  settles (fun n => parse_str n (quoted s)) (Ok (VS s)).
Proof.
  intros P. pose proof (read_doc false (DStr s)) as H. cbn [show_doc doc_tree doc_ok names_plain] in H.
  destruct P as (Q & B & S). specialize (H Q (conj Q (conj B S))).
  assert (V : visit (NStr (quoted s)) = Ok (VS s)).
  { cbn [visit]. rewrite greek_id.
    - unfold literal_eval. rewrite literal_quoted by assumption. reflexivity.
    - unfold quoted, no_backslash in *. cbn [forallb]. rewrite forallb_app, B. reflexivity. }
  rewrite V in H. exact H.
Qed.

End Values.

(** The fuel of the lexer does not matter. *)
Lemma lex_enough n : forall m l, List.length l <= n -> List.length l <= m ->
  lex_loop n l = lex_loop m l.
Proof.
  induction n as [|n IH]; intros m l L M.
  - destruct l; [destruct m; reflexivity|cbn in L; lia].
  - destruct l as [|c l]; [destruct m; reflexivity|].
    destruct m as [|m]; [cbn in M; lia|]. cbn [List.length] in L, M.
    assert (One : lex_loop n l = lex_loop m l) by (apply IH; lia).
    assert (Two : lex_loop n (skipn 1 l) = lex_loop m (skipn 1 l)).
    { pose proof (skipn_len 1 l). apply IH; lia. }
    assert (Gen : forall l2, List.length l2 <= S (List.length l) ->
               lex_loop n (skipn 1 l2) = lex_loop m (skipn 1 l2)).
    { intros l2 L2. apply IH; rewrite skipn_length; lia. }
    unfold lex_loop; fold lex_loop. rewrite One, Two.
    destruct (is_white c); [reflexivity|].
    destruct ((c =? ".")%char || is_digit c || is_letter c).
    { destruct (generate_expr (c :: l)) as [t l2] eqn:E. rewrite (Gen l2); [reflexivity|].
      unfold generate_expr in E. destruct (expr_loop 0 [] (c :: l)) as [v r] eqn:F.
      injection E as <- <-. apply expr_loop_len in F. exact F. }
    destruct (is_quote c || triple (c :: l)); [|reflexivity].
    destruct (generate_str (c :: l)) as [[t l2]|e] eqn:E; [|reflexivity].
    rewrite (Gen l2); [reflexivity|]. unfold generate_str in E.
    destruct (str_loop _ _ (skipn (if triple (c :: l) then 3 else 1) (c :: l)))
      as [v r] eqn:F.
    apply str_loop_len in F. destruct r as [|z r]; [discriminate|].
    assert (G : skipn (if triple (c :: l) then 3 else 1) (z :: r) = l2) by congruence.
    rewrite <- G.
    pose proof (skipn_len (if triple (c :: l) then 3 else 1) (z :: r)).
    pose proof (skipn_len (if triple (c :: l) then 3 else 1) (c :: l)).
    cbn [List.length] in *. lia.
Qed.

Theorem lex_name_apart s rest : quotable s ->
  lex (quoted s ++ rest) = Ok (TString (quoted s)) :: lex rest.
Proof.
  intros Q. unfold lex.
  rewrite (lex_enough _ (S (List.length (quoted s ++ rest)))) by lia.
  rewrite lex_quoted by exact Q. f_equal. apply lex_enough; [|lia].
  rewrite app_length. lia.
Qed.

(** What the reader does with names ending in an apostrophe, with empty names, with
    decimal numbers, and with stray characters; the characters the lexer keeps. *)
From Verif Require Import Base LexM ParseM InterpM SpecParse Lex_P Parse_P Doc_P Text_P.
From Coq Require Import Ascii.
Import List.

(** ** Names *)
Lemma removelast_snoc {A : Type} (l : list A) (x : A) : removelast (l ++ [x]) = l.
Proof. apply removelast_last. Qed.

Lemma generate_apostrophe (s rest : text) :
  forallb (fun c => negb (c =? dquote)%char) s = true ->
  generate_str (quoted (s ++ [squote]) ++ rest) = Ok (TString (quoted s), dquote :: rest).
Proof.
  intros H.
  assert (H1 : forallb (fun c => negb (c =? dquote)%char) (s ++ [squote]) = true).
  { rewrite forallb_app, H. reflexivity. }
  remember (s ++ [squote]) as w eqn:W. destruct w as [|c w]; [destruct s; discriminate|].
  unfold quoted at 1. unfold generate_str.
  replace ((dquote :: (c :: w) ++ [dquote]) ++ rest)
    with (dquote :: c :: w ++ dquote :: rest)
    by (cbn [app]; rewrite <- app_assoc; reflexivity).
  assert (T : triple (dquote :: c :: w ++ dquote :: rest) = false).
  { cbn [triple]. destruct (w ++ dquote :: rest); [reflexivity|].
    cbn [forallb] in H1. apply andb_prop in H1 as [H1 _]. apply negb_true_iff in H1.
    rewrite H1. rewrite andb_false_r. reflexivity. }
  rewrite T. cbn [hd_error firstn skipn].
  destruct (str_loop_plain w [dquote] c rest H1) as (z & E & Z). rewrite E.
  assert (Z' : z = squote) by (rewrite Z, W; apply last_last). rewrite Z'.
  change (is_quote squote) with true. cbv iota. rewrite W, removelast_last. reflexivity.
Qed.

(** Dropping what the lexer is given behind a string. *)
Lemma lex_string s rest v r : generate_str (dquote :: s ++ rest) = Ok (v, r) ->
  forall n, lex_loop (S n) (dquote :: s ++ rest) = Ok v :: lex_loop n (skipn 1 r).
Proof.
  intros E n. unfold lex_loop; fold lex_loop.
  change (is_white dquote) with false. change (is_digit dquote) with false.
  change (is_letter dquote) with false. change (is_quote dquote) with true.
  cbn [orb]. change ((dquote =? ".")%char) with false. cbn [orb]. rewrite E. reflexivity.
Qed.

Lemma lex_apostrophe s rest : forallb (fun c => negb (c =? dquote)%char) s = true ->
  lex (quoted (s ++ [squote]) ++ rest) = Ok (TString (quoted s)) :: lex rest.
Proof.
  intros Q. pose proof (generate_apostrophe s rest Q) as E.
  unfold lex. rewrite (lex_enough _ (S (List.length (quoted (s ++ [squote]) ++ rest)))) by lia.
  unfold quoted at 1 in E. change ((dquote :: (s ++ [squote]) ++ [dquote]) ++ rest)
    with (dquote :: ((s ++ [squote]) ++ [dquote]) ++ rest) in E.
  rewrite (lex_string _ _ _ _ E). f_equal. cbn [skipn].
  apply lex_enough; [|lia]. rewrite app_length. lia.
Qed.

Lemma single_spaces_apostrophe s : forall p,
  single_spaces p (s ++ [dquote]) = true -> single_spaces p ((s ++ [squote]) ++ [dquote]) = true.
Proof.
  induction s as [|c s IH]; intros p H; [reflexivity|].
  cbn [app] in *; rewrite single_cons in *. destruct (is_space c).
  - apply andb_prop in H as [A B]. rewrite A. apply IH, B.
  - apply IH, H.
Qed.

Lemma literal_quoted_any s : forallb (fun c => negb (c =? dquote)%char) s = true ->
  no_backslash s = true -> single_spaces false (s ++ [dquote]) = true ->
  plain_quoted (quoted s) = Some s.
Proof.
  intros Q B S. destruct s as [|x s0] eqn:E; [reflexivity|]. rewrite <- E in *.
  destruct (ascii_dec (last s " "%char) squote) as [L|L].
  2: { apply literal_quoted; [|exact B|exact S]. split; [congruence|auto]. }
  (* the last character does not matter to the test *)
  unfold plain_quoted, quoted.
  change (is_quote dquote) with true. cbv iota. rewrite rev_app_distr. cbn [rev app].
  rewrite Ascii.eqb_refl. cbn [andb].
  assert (N : s <> []) by congruence. pose proof (app_removelast_last " "%char N) as R.
  rewrite L in R. set (t := removelast s) in *.
  assert (T : plain_quoted (quoted (t ++ ["a"%char])) = Some (t ++ ["a"%char])).
  { apply literal_quoted.
    - split; [destruct t; discriminate|]. split; [|rewrite last_last; discriminate].
      rewrite R, forallb_app in Q. apply andb_prop in Q as [Q _].
      rewrite forallb_app, Q. reflexivity.
    - unfold no_backslash in *. rewrite R, forallb_app in B. apply andb_prop in B as [B _].
      rewrite forallb_app, B. reflexivity.
    - rewrite R in S.
      assert (G : forall p, single_spaces p ((t ++ [squote]) ++ [dquote]) = true ->
                single_spaces p ((t ++ ["a"%char]) ++ [dquote]) = true); [|exact (G _ S)].
      clear. induction t as [|c t IH]; intros p S.
      + reflexivity.
      + cbn [app] in *; rewrite single_cons in *. destruct (is_space c).
        * apply andb_prop in S as [A S]. rewrite A. apply IH, S.
        * apply IH, S. }
  unfold plain_quoted, quoted in T. change (is_quote dquote) with true in T. cbv iota in T.
  rewrite rev_app_distr in T. cbn [rev app] in T. rewrite Ascii.eqb_refl in T. cbn [andb] in T.
  rewrite R. rewrite !rev_app_distr in *. cbn [rev app forallb] in *.
  change (negb ((squote =? dquote)%char || (squote =? backslash)%char || (squote =? "010")%char
    || (squote =? "013")%char)) with true.
  change (negb (("a" =? dquote)%char || ("a" =? backslash)%char || ("a" =? "010")%char
    || ("a" =? "013")%char)) with true in T.
  cbn [andb] in *. destruct (forallb _ (rev t)); [|discriminate].
  rewrite rev_involutive. reflexivity.
Qed.

Section Values.
Context {O : PyOps}.

Lemma parse_single n v : 3 <= n -> parse n [Ok (TString v)] = Ok (NStr v).
Proof. intros H. do 3 (destruct n as [|n]; [lia|]). reflexivity. Qed.

Theorem apostrophe_lost s : forallb (fun c => negb (c =? dquote)%char) s = true ->
  no_backslash s = true -> single_spaces false (s ++ [dquote]) = true ->
  settles (fun n => parse_str n (quoted (s ++ [squote]))) (Ok (VS s)).
Proof.
  intros Q B S. exists 3. intros n L. unfold parse_str.
  rewrite normalise_id.
  - pose proof (lex_apostrophe s [] Q) as E. rewrite app_nil_r in E. rewrite E.
    change (lex []) with (@nil (res token)). rewrite parse_single by exact L. cbn [rbind visit].
    rewrite greek_id.
    + unfold literal_eval. rewrite literal_quoted_any by assumption. reflexivity.
    + unfold quoted, no_backslash in *. cbn [forallb]. rewrite forallb_app, B. reflexivity.
  - unfold quoted, no_backslash in *. cbn [forallb]. rewrite !forallb_app, B. reflexivity.
  - unfold quoted. change (single_spaces false ((s ++ [squote]) ++ [dquote]) = true).
    apply single_spaces_apostrophe, S.
Qed.

(** ** Decimal numbers *)
Lemma digits_alnum v : forallb digit v = true -> forallb alnum v = true.
Proof.
  intros H. rewrite forallb_forall in *. intros c I. unfold alnum. rewrite (H c I). reflexivity.
Qed.

Lemma expr_loop_point (b : text) rest : b <> [] -> forallb alnum b = true -> starts_alnum rest = false ->
  exists z, expr_loop 0 [] ("."%char :: b ++ rest) = ("."%char :: b, z :: rest).
Proof.
  intros N H R. destruct b as [|c b]; [congruence|].
  cbn [forallb] in H. apply andb_prop in H as [Hc H].
  change (expr_loop 0 [] ("."%char :: (c :: b) ++ rest))
    with (if expr_goes_on (c :: b ++ rest) then expr_loop 1 ["."%char] (c :: b ++ rest)
          else (["."%char], "."%char :: c :: b ++ rest)).
  rewrite goes_on_alnum, Hc.
  destruct (expr_loop_word b 1 ["."%char] c rest H Hc R) as [z E]. exists z. exact E.
Qed.

Lemma pad_fraction b : b <> [] -> forallb alnum b = true ->
  pad_point ("."%char :: b) = "0"%char :: "."%char :: b.
Proof.
  intros N H. destruct (exists_last N) as (b' & z & ->).
  pose proof (alnum_not_dot _ _ H) as Z. unfold pad_point.
  change (("." =? ".")%char) with true. cbv iota.
  change ("0"%char :: "."%char :: b' ++ [z]) with (("0"%char :: "."%char :: b') ++ [z]).
  rewrite rev_app_distr. cbn [rev app]. rewrite Z. reflexivity.
Qed.

Lemma lex_fraction b rest n : b <> [] -> forallb alnum b = true -> starts_alnum rest = false ->
  lex_loop (S n) ("."%char :: b ++ rest)
  = Ok (TExpr ("0"%char :: "."%char :: b)) :: lex_loop n rest.
Proof.
  intros N H R. unfold lex_loop; fold lex_loop. cbn [is_white].
  change (is_white ".") with false. change (("." =? ".")%char) with true. cbn [orb].
  unfold generate_expr. destruct (expr_loop_point b rest N H R) as [z E].
  rewrite E. cbn [skipn]. rewrite pad_fraction by assumption. reflexivity.
Qed.

Lemma lex_decimal a b : word a -> word b ->
  lex (a ++ "."%char :: b) = [Ok (TExpr a); Ok (TExpr ("0"%char :: "."%char :: b))].
Proof.
  intros A [NB B]. unfold lex.
  rewrite (lex_enough _ (S (S (List.length (a ++ "."%char :: b))))) by lia.
  rewrite lex_word by (try assumption; reflexivity). f_equal.
  pose proof (lex_fraction b [] (List.length (a ++ "."%char :: b)) NB B eq_refl) as E.
  rewrite app_nil_r in E. rewrite E. f_equal. destruct (List.length _); reflexivity.
Qed.

Lemma plain_text_normal l : forallb (fun c => negb (is_space c)) l = true -> l <> [] ->
  no_backslash l = true -> normalise l = l.
Proof.
  intros S N B. apply normalise_id; [exact B|].
  assert (G : forall p, single_spaces p l = true); [|apply G].
  destruct l as [|c l]; [congruence|]. clear N B. cbn [forallb] in S. apply andb_prop in S as [C S].
  apply negb_true_iff in C. intros p. rewrite single_cons. rewrite C.
  induction l as [|d l IH]; [reflexivity|]. cbn [forallb] in S. apply andb_prop in S as [D S].
  apply negb_true_iff in D. rewrite single_cons. rewrite D. apply IH, S.
Qed.

Lemma word_chars v : forallb alnum v = true ->
  forallb (fun c => negb (is_space c)) v = true /\ no_backslash v = true.
Proof.
  intros H. unfold no_backslash. rewrite !forallb_forall in *. split; intros c I;
    destruct (alnum_plain c (H c I)) as [A B]; [rewrite A|rewrite B]; reflexivity.
Qed.

Theorem decimal_fails a b : number a -> number b ->
  settles (fun n => parse_str n (a ++ chars "." ++ b)) (Err EException).
Proof.
  intros [NA A] [NB B]. apply digits_alnum in A, B.
  destruct (word_chars a A) as [A1 A2]. destruct (word_chars b B) as [B1 B2].
  exists 4. intros n L. unfold parse_str. change (chars "." ++ b) with ("."%char :: b).
  rewrite plain_text_normal.
  - rewrite lex_decimal by (split; assumption).
    do 4 (destruct n as [|n]; [lia|]). reflexivity.
  - rewrite forallb_app, A1. cbn [forallb]. rewrite B1. reflexivity.
  - destruct a; discriminate.
  - unfold no_backslash in *. rewrite forallb_app, A2. cbn [forallb]. rewrite B2. reflexivity.
Qed.

Theorem leading_point b : number b ->
  settles (fun n => parse_str n (chars "." ++ b)) (visit (NExpr (chars "0." ++ b))).
Proof.
  intros [NB B]. apply digits_alnum in B. destruct (word_chars b B) as [B1 B2].
  exists 4. intros n L. unfold parse_str. change (chars "." ++ b) with ("."%char :: b).
  rewrite plain_text_normal.
  - unfold lex. rewrite (lex_enough _ (S (List.length ("."%char :: b)))) by lia.
    pose proof (lex_fraction b [] (List.length ("."%char :: b)) NB B eq_refl) as E.
    rewrite app_nil_r in E. rewrite E.
    do 4 (destruct n as [|n]; [lia|]). reflexivity.
  - cbn [forallb]. rewrite B1. reflexivity.
  - discriminate.
  - unfold no_backslash in *. cbn [forallb]. rewrite B2. reflexivity.
Qed.

End Values.

(** ** The empty name *)
Lemma str_loop_rest l : forall acc c, l <> [] ->
  forallb (fun x => negb (is_quote x)) l = true ->
  str_loop (Some dquote) acc (c :: l)
  = (acc ++ removelast (c :: l), [last l " "%char]).
Proof.
  induction l as [|d l IH]; intros acc c N H; [congruence|].
  cbn [forallb] in H. apply andb_prop in H as [D H].
  apply negb_true_iff in D. apply orb_false_iff in D as [D1 D2].
  change (str_loop (Some dquote) acc (c :: d :: l))
    with (if negb (d =? dquote)%char && negb (triple (c :: d :: l))
          then str_loop (Some dquote) (acc ++ [c]) (d :: l) else (acc, c :: d :: l)).
  assert (T : triple (c :: d :: l) = false).
  { destruct l; [reflexivity|]. cbn [triple]. rewrite D1, andb_false_r. reflexivity. }
  rewrite D1, T. cbn [negb andb]. destruct l as [|e l].
  - reflexivity.
  - rewrite IH by (try discriminate; exact H). rewrite <- app_assoc. reflexivity.
Qed.

Lemma last_cons_any {A : Type} (l : list A) (x d : A) : l <> [] -> last (x :: l) d = last l d.
Proof. destruct l; [congruence|reflexivity]. Qed.

Theorem empty_name_swallows rest : rest <> [] ->
  forallb (fun x => negb (quotation x)) rest = true ->
  lex (quoted [] ++ rest) = [Ok (TString (quoted (dquote :: rest)))].
Proof.
  intros N H'. assert (H : forallb (fun x => negb (is_quote x)) rest = true)
    by (rewrite forallb_forall in *; intros c I; rewrite <- quotation_is; exact (H' c I)). clear H'.
  assert (E : generate_str (dquote :: dquote :: rest)
              = Ok (TString (quoted (dquote :: rest)), [])).
  { unfold generate_str.
    assert (T : triple (dquote :: dquote :: rest) = false).
    { destruct rest as [|c r]; [congruence|]. cbn [triple forallb] in *.
      apply andb_prop in H as [C _]. apply negb_true_iff, orb_false_iff in C as [C _].
      rewrite C, andb_false_r. reflexivity. }
    rewrite T. cbn [hd_error firstn skipn]. rewrite str_loop_rest by assumption.
    assert (Z : is_quote (last rest " "%char) = false).
    { rewrite forallb_forall in H. apply negb_true_iff. apply H.
      rewrite (app_removelast_last " "%char N) at 2. apply in_or_app. right. left. reflexivity. }
    rewrite Z.
    assert (G : removelast (dquote :: rest) ++ [last rest " "%char] = dquote :: rest).
    { rewrite <- (last_cons_any rest dquote " "%char N). symmetry. apply app_removelast_last. discriminate. }
    unfold quoted. do 3 f_equal. rewrite <- !app_assoc. cbn [app]. f_equal. transitivity ((removelast (dquote :: rest) ++ [last rest " "%char]) ++ [dquote]); [rewrite <- app_assoc; reflexivity|rewrite G; reflexivity]. }
  unfold lex. rewrite (lex_enough _ (S (List.length (quoted [] ++ rest)))) by lia.
  change (quoted [] ++ rest) with (dquote :: [dquote] ++ rest).
  rewrite (lex_string [dquote] rest _ _ E). cbn [skipn]. destruct (List.length _); reflexivity.
Qed.

(** ** Stray characters *)
Lemma lex_two c d rest : lex_loop (S (S (List.length rest))) (c :: d :: rest)
  = lex_loop (S (List.length rest)) rest -> lex (c :: d :: rest) = lex rest.
Proof.
  intros E. unfold lex. change (List.length (c :: d :: rest)) with (S (S (List.length rest))).
  rewrite E. apply lex_enough; lia.
Qed.

Theorem stray_less d rest : d <> "|"%char -> lex ("<"%char :: d :: rest) = lex rest.
Proof.
  intros H. apply lex_two. apply Ascii.eqb_neq in H.
  unfold lex_loop at 1; fold lex_loop. rewrite H.
  destruct rest; reflexivity.
Qed.

Theorem stray_greater d rest : lex (">"%char :: d :: rest) = lex rest.
Proof. apply lex_two. destruct rest; reflexivity. Qed.

Theorem stray_bar d rest : d <> ">"%char -> lex ("|"%char :: d :: rest) = lex rest.
Proof.
  intros H. apply lex_two. apply Ascii.eqb_neq in H.
  unfold lex_loop at 1; fold lex_loop. rewrite H.
  destruct rest; reflexivity.
Qed.

(** ** The characters kept *)
Definition blank (c : ascii) : ascii := if is_white c then " "%char else c.
Definition kept_char (c : ascii) : bool := negb (is_quote c) && negb (c =? ".")%char.

Lemma expr_loop_keeps l : forall d acc v r, expr_loop d acc l = (v, r) ->
  forallb kept_char l = true -> l <> [] ->
  exists w, v = acc ++ w /\ l = w ++ skipn 1 r /\ r <> [] /\ w <> [].
Proof.
  induction l as [|c l IH]; intros d acc v r E K N; [congruence|].
  cbn [expr_loop] in E. cbn [forallb] in K. apply andb_prop in K as [C K].
  apply andb_prop in C as [_ C]. apply negb_true_iff in C. rewrite C in E.
  destruct (expr_goes_on l) eqn:G.
  - assert (Nl : l <> []) by (destruct l; [discriminate|discriminate]).
    apply IH in E; [|exact K|exact Nl]. destruct E as (w & -> & L & R & W).
    exists (c :: w). rewrite <- app_assoc. repeat split; try assumption; try discriminate.
    cbn [app]. f_equal. exact L.
  - injection E as <- <-. exists [c]. repeat split; try discriminate.
Qed.

Lemma expr_loop_words l : forall d acc c v r, expr_loop d acc (c :: l) = (v, r) ->
  forallb kept_char (c :: l) = true ->
  exists w, v = acc ++ c :: w /\ forallb alnum w = true.
Proof.
  induction l as [|e l IH]; intros d acc c v r E K.
  - cbn in E. injection E as <- <-. exists []. auto.
  - cbn [forallb] in K. apply andb_prop in K as [C K].
    apply andb_prop in C as [_ C]. apply negb_true_iff in C.
    change (expr_loop d acc (c :: e :: l)) with
      (if expr_goes_on (e :: l)
      then if (c =? ".")%char
           then if Nat.ltb 0 d then (acc ++ [c], c :: e :: l)
                else expr_loop (S d) (acc ++ [c]) (e :: l)
           else expr_loop d (acc ++ [c]) (e :: l)
      else (acc ++ [c], c :: e :: l)) in E.
    rewrite C in E. rewrite goes_on_alnum in E. destruct (alnum e) eqn:A.
    + apply IH in E; [|exact K]. destruct E as (w & -> & W). exists (e :: w).
      rewrite <- app_assoc. cbn [app forallb]. rewrite A. auto.
    + injection E as <- <-. exists []. auto.
Qed.

Lemma no_stray_app w l : forallb alnum w = true -> no_stray (w ++ l) = no_stray l.
Proof.
  induction w as [|c w IH]; intros H; [reflexivity|].
  cbn [forallb] in H. apply andb_prop in H as [C H]. rewrite <- (IH H).
  destruct (alnum_facts c C) as (_ & _ & _ & F1 & F2 & F3 & _ & F4 & _).
  cbn [app no_stray]. rewrite F1, F2, F3, F4. cbn [andb orb negb].
  destruct (w ++ l); reflexivity.
Qed.

Lemma word_blank w : forallb alnum w = true -> map blank w = w.
Proof.
  induction w as [|c w IH]; intros H; [reflexivity|].
  cbn [forallb] in H. apply andb_prop in H as [C H]. cbn [map]. rewrite (IH H).
  unfold blank. destruct (alnum_facts c C) as (F & _). rewrite F. reflexivity.
Qed.

Lemma lex_keeps n : forall l ts,
  lex_loop n l = map Ok ts -> forallb kept_char l = true -> no_stray l = true ->
  show_toks ts = map blank l.
Proof.
  induction n as [|n IH]; intros l ts E K S.
  - destruct l; [destruct ts; [reflexivity|discriminate]|]. destruct ts; discriminate.
  - destruct l as [|c l]; [destruct ts; [reflexivity|discriminate]|].
    pose proof K as K0. cbn [forallb] in K. apply andb_prop in K as [C K].
    apply andb_prop in C as [C1 C2]. apply negb_true_iff in C1, C2.
    unfold lex_loop in E; fold lex_loop in E.
    assert (One : forall t, Ok t :: lex_loop n l = map Ok ts -> show_tok t = [blank c] ->
               no_stray l = true -> show_toks ts = map blank (c :: l)).
    { intros t F T Sl. destruct ts as [|t' ts]; [discriminate|]. injection F as <- F.
      change (show_toks (t :: ts)) with (show_tok t ++ show_toks ts).
      rewrite (IH l ts F K Sl), T. reflexivity. }
    assert (Nx : forall d l2, l = d :: l2 -> forallb kept_char l2 = true).
    { intros d l2 ->. cbn [forallb] in K. apply andb_prop in K as [_ K]. exact K. }
    assert (St : ((c =? "<")%char || (c =? "-")%char || (c =? "|")%char) = false -> no_stray l = true).
    { intros F. apply orb_false_iff in F as [F F3]. apply orb_false_iff in F as [F1 F2].
      cbn [no_stray] in S. rewrite F1, F2, F3 in S. cbn [andb orb] in S.
      destruct l; [reflexivity|]. apply andb_prop in S. tauto. }
    destruct (is_white c) eqn:W.
    { apply (One TWhitespace E).
      - unfold blank. rewrite W. reflexivity.
      - apply St. pose proof (all_chars (fun c => implb (is_white c)
          (negb ((c =? "<")%char || (c =? "-")%char || (c =? "|")%char))) eq_refl c) as G.
        cbv beta in G. rewrite W in G. apply negb_true_iff, G. }
    assert (Bc : blank c = c) by (unfold blank; rewrite W; reflexivity). rewrite Bc in One.
    rewrite C2 in E. cbn [orb] in E. rewrite <- alnum_is in E.
    destruct (alnum c) eqn:A.
    { unfold generate_expr in E. destruct (expr_loop 0 [] (c :: l)) as [v r] eqn:F.
      destruct (expr_loop_keeps _ _ _ _ _ F K0 ltac:(discriminate)) as (w & V & L & R & Wn).
      destruct (expr_loop_words _ _ _ _ _ _ F K0) as (w' & V' & A').
      cbn [app] in V, V'. subst v w.
      assert (Al : forallb alnum (c :: w') = true) by (cbn [forallb]; rewrite A; exact A').
      rewrite pad_word in E by exact Al.
      destruct ts as [|t ts]; [discriminate|]. injection E as <- E.
      change (show_toks (TExpr (c :: w') :: ts)) with ((c :: w') ++ show_toks ts).
      rewrite L in *. rewrite map_app, (word_blank _ Al). f_equal. apply IH.
      - exact E.
      - rewrite forallb_app in K0. apply andb_prop in K0. tauto.
      - rewrite <- S. symmetry. apply no_stray_app, Al. }
    rewrite C1 in E.
    assert (T : triple (c :: l) = false).
    { apply orb_false_iff in C1 as [C1 _]. unfold triple. destruct l as [|? [|? ?]]; try reflexivity.
      rewrite C1. reflexivity. }
    rewrite T in E. cbn [orb] in E. cbn [no_stray] in S.
    destruct l as [|d l].
    + (* the last character *)
      rewrite !andb_false_r in E. cbn [negb] in E. rewrite andb_true_r in E.
      apply negb_true_iff in S. rewrite S in E.
      repeat match type of E with
      | (if (c =? ?x)%char then _ else _) = _ =>
          let H := fresh in destruct ((c =? x)%char) eqn:H;
          [apply Ascii.eqb_eq in H; subst c; solve [eapply One; [exact E|reflexivity|reflexivity]]|]
      end. destruct ts; discriminate.
    + pose proof (Nx d l eq_refl) as K2.
      assert (Two : forall t x y, c = x -> d = y -> Ok t :: lex_loop n l = map Ok ts ->
                show_tok t = [x; y] -> is_white y = false -> no_stray l = true ->
                show_toks ts = map blank (c :: d :: l)).
      { intros t x y -> -> F Sh Wy Sl. destruct ts as [|t' ts]; [discriminate|].
        injection F as <- F. change (show_toks (t :: ts)) with (show_tok t ++ show_toks ts).
        rewrite (IH l ts F K2 Sl), Sh. cbn [map]. unfold blank at 2 3. rewrite W, Wy. reflexivity. }
      cbn [skipn] in E.
      destruct ((c =? "<")%char && (d =? "|")%char) eqn:P1.
      { apply andb_prop in P1 as [P1 P2]. apply Ascii.eqb_eq in P1, P2.
        eapply (Two TLassoc "<"%char "|"%char P1 P2); try reflexivity; [|exact S].
        subst c d. exact E. }
      destruct ((c =? "|")%char && (d =? ">")%char) eqn:P2.
      { apply andb_prop in P2 as [P2 P3]. apply Ascii.eqb_eq in P2, P3.
        eapply (Two TRassoc "|"%char ">"%char P2 P3); try reflexivity; [|exact S].
        subst c d. exact E. }
      destruct ((c =? "-")%char && (d =? ">")%char) eqn:P3.
      { apply andb_prop in P3 as [P3 P4]. apply Ascii.eqb_eq in P3, P4.
        eapply (Two TArrow "-"%char ">"%char P3 P4); try reflexivity; [|exact S].
        subst c d. exact E. }
      cbn [orb] in S. apply andb_prop in S as [Sc S]. apply negb_true_iff in Sc. rewrite Sc in E.
      destruct ((c =? "-")%char && negb (d =? ">")%char) eqn:P4.
      { apply andb_prop in P4 as [P4 P5]. apply Ascii.eqb_eq in P4. subst c.
        eapply (One TMinus); [exact E|reflexivity|exact S]. }
      repeat match type of E with
      | (if (c =? ?x)%char then _ else _) = _ =>
          let H := fresh in destruct ((c =? x)%char) eqn:H;
          [apply Ascii.eqb_eq in H; subst c; solve [eapply One; [exact E|reflexivity|exact S]]|]
      end. destruct ts; discriminate.
Qed.

Theorem lex_lossless l ts : lex l = map Ok ts ->
  forallb (fun c => negb (quotation c) && negb (c =? ".")%char) l = true ->
  no_stray l = true ->
  show_toks ts = map (fun c => if white c then " "%char else c) l.
Proof.
  intros H1 H2 H3. rewrite (map_ext (fun c => if white c then " "%char else c) blank); [|intros c; unfold blank; now rewrite white_is].
  eapply lex_keeps; [exact H1| |exact H3].
  rewrite forallb_forall in *. intros c I. unfold kept_char. rewrite <- quotation_is. exact (H2 c I).
Qed.

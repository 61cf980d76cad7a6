(** Greek letters in names, and calls with several groups of arguments. *)
From Verif Require Import Base LexM ParseM InterpM SpecParse Lex_P Parse_P Doc_P Text_P
  Read_P Witness_Parse_P Value_P.
From Coq Require Import Ascii.
Import List.

(** ** Greek letters in names *)
Definition changed (pat new l l' : text) : Prop :=
  forall rest, replace pat new (l ++ rest) = l' ++ replace pat new rest.

Lemma changed_nil pat new : changed pat new [] [].
Proof. intros rest. reflexivity. Qed.

Lemma changed_app pat new a a' b b' :
  changed pat new a a' -> changed pat new b b' -> changed pat new (a ++ b) (a' ++ b').
Proof. intros A B rest. rewrite <- !app_assoc, A, B. reflexivity. Qed.

Lemma prefix_self p rest : prefix_of p (p ++ rest) = true.
Proof. induction p as [|c p IH]; [reflexivity|]. cbn. rewrite Ascii.eqb_refl. exact IH. Qed.

Lemma changed_pat p pat new : changed (p :: pat) new (p :: pat) new.
Proof.
  intros rest. unfold replace.
  rewrite (replace_enough (p :: pat) new _ ltac:(discriminate) (S (List.length ((p :: pat) ++ rest)))) by lia.
  assert (E : forall n l, replace_loop (S n) (p :: pat) new ((p :: pat) ++ l)
                          = new ++ replace_loop n (p :: pat) new l).
  { intros n l. cbn [app replace_loop]. change (p :: pat ++ l) with ((p :: pat) ++ l).
    rewrite prefix_self. f_equal. f_equal. rewrite skipn_app, skipn_all, Nat.sub_diag. reflexivity. }
  rewrite E. f_equal. apply replace_enough; [discriminate| |lia]. rewrite app_length. lia.
Qed.

Lemma changed_char pat new c l : (forall rest, prefix_of pat (c :: l ++ rest) = false) ->
  changed pat new l l -> changed pat new (c :: l) (c :: l).
Proof.
  intros C L rest. cbn [app].
  assert (E : replace pat new (c :: l ++ rest) = c :: replace pat new (l ++ rest)).
  { unfold replace. cbn [List.length replace_loop]. rewrite C. reflexivity. }
  rewrite E, L. reflexivity.
Qed.

Lemma changed_plain pat new l : no_backslash l = true -> changed (backslash :: pat) new l l.
Proof.
  induction l as [|c l IH]; intros H; [apply changed_nil|].
  unfold no_backslash in H. cbn [forallb] in H. apply andb_prop in H as [C H].
  apply negb_true_iff in C. apply changed_char; [|apply IH, H]. intros rest.
  change (prefix_of (backslash :: pat) (c :: l ++ rest))
    with ((backslash =? c)%char && prefix_of pat (l ++ rest)).
  rewrite Ascii.eqb_sym, C. reflexivity.
Qed.

Lemma prefix_either p : forall l rest, prefix_of p (l ++ rest) = true ->
  prefix_of p l = true \/ prefix_of l p = true.
Proof.
  induction p as [|c p IH]; intros l rest H; [left; reflexivity|].
  destruct l as [|d l]; [right; reflexivity|]. cbn [app prefix_of] in H.
  apply andb_prop in H as [C H]. cbn [prefix_of]. rewrite (Ascii.eqb_sym d c), C. cbn [andb].
  eapply IH, H.
Qed.

(** The commands of Greek letters. *)
Definition cmds : list (text * text) :=
  map (fun p => (chars (fst p), chars (snd p))) greek_commands.

Definition cmd_okb (p : text * text) : bool :=
  match fst p with
  | c :: l => (c =? backslash)%char && no_backslash l
  | [] => false
  end && no_backslash (snd p).

Lemma cmds_ok : forallb cmd_okb cmds = true.
Proof. vm_compute. reflexivity. Qed.

Definition apartb (p q : text * text) : bool :=
  (text_eqb (fst p) (fst q) && text_eqb (snd p) (snd q))
  || (negb (prefix_of (fst p) (fst q)) && negb (prefix_of (fst q) (fst p))).

Lemma cmds_apart : forallb (fun p => forallb (apartb p) cmds) cmds = true.
Proof. vm_compute. reflexivity. Qed.

Lemma cmd_changed p q : In p cmds -> In q cmds -> p <> q ->
  changed (fst p) (snd p) (fst q) (fst q).
Proof.
  intros P Q N.
  pose proof cmds_apart as A. rewrite forallb_forall in A. specialize (A p P).
  rewrite forallb_forall in A. specialize (A q Q). unfold apartb in A.
  apply orb_prop in A as [A|A].
  { apply andb_prop in A as [A B]. apply text_eqb_spec in A, B. exfalso. apply N.
    destruct p, q. cbn in *. congruence. }
  apply andb_prop in A as [A B]. apply negb_true_iff in A, B.
  pose proof cmds_ok as O. rewrite forallb_forall in O.
  pose proof (O p P) as Op. pose proof (O q Q) as Oq.
  destruct p as [[|c p] u]; [discriminate|]. destruct q as [[|d q] v]; [discriminate|].
  unfold cmd_okb in Op, Oq. cbn [fst snd] in *.
  apply andb_prop in Op as [Op _]. apply andb_prop in Op as [C _]. apply Ascii.eqb_eq in C. subst c.
  apply andb_prop in Oq as [Oq _]. apply andb_prop in Oq as [_ L].
  apply changed_char; [|apply changed_plain, L]. intros rest.
  change (backslash :: ?x) with (backslash :: x) in *.
  destruct (prefix_of (backslash :: p) (d :: q ++ rest)) eqn:E; [|reflexivity].
  change (d :: q ++ rest) with ((d :: q) ++ rest) in E. apply prefix_either in E. destruct E; congruence.
Qed.

(** A text during the replacements: the commands of [done] are replaced. *)
Definition item : Type := (text + text * text)%type.
Definition item_ok (i : item) : Prop :=
  match i with inl t => no_backslash t = true | inr p => In p cmds end.
Definition doneb (done : list (text * text)) (p : text * text) : bool :=
  existsb (fun q => text_eqb (fst p) (fst q) && text_eqb (snd p) (snd q)) done.
Definition stage (done : list (text * text)) (i : item) : text :=
  match i with inl t => t | inr p => if doneb done p then snd p else fst p end.

Lemma stage_item done p i : In p cmds -> item_ok i ->
  changed (fst p) (snd p) (stage done i) (stage (p :: done) i).
Proof.
  intros P I. pose proof cmds_ok as O. rewrite forallb_forall in O. pose proof (O p P) as Op.
  destruct p as [[|c p] u]; [discriminate|]. unfold cmd_okb in Op. cbn [fst snd] in *.
  apply andb_prop in Op as [Op U]. apply andb_prop in Op as [C _]. apply Ascii.eqb_eq in C. subst c.
  destruct i as [t|q]; cbn [stage item_ok] in *; [apply changed_plain, I|].
  cbn [doneb existsb fst snd]. fold (doneb done q).
  pose proof (O q I) as Oq. unfold cmd_okb in Oq. apply andb_prop in Oq as [_ V].
  destruct (text_eqb (fst q) (backslash :: p) && text_eqb (snd q) u) eqn:E; cbn [orb].
  - apply andb_prop in E as [E1 E2]. apply text_eqb_spec in E1, E2. rewrite E1, E2.
    destruct (doneb done q); [apply changed_plain, U|apply changed_pat].
  - destruct (doneb done q); [apply changed_plain, V|].
    apply (cmd_changed (backslash :: p, u) q P I). intros <-. cbn [fst snd] in E.
    rewrite !text_eqb_refl in E. discriminate.
Qed.

Lemma stage_items done p l : In p cmds -> Forall item_ok l ->
  changed (fst p) (snd p) (flat_map (stage done) l) (flat_map (stage (p :: done)) l).
Proof.
  intros P. induction 1 as [|i l I L IH]; [apply changed_nil|].
  cbn [flat_map]. apply changed_app; [apply stage_item; assumption|exact IH].
Qed.

Lemma fold_stage l cs : Forall item_ok l -> (forall p, In p cs -> In p cmds) -> forall done,
  fold_left (fun t p => replace (fst p) (snd p) t) cs (flat_map (stage done) l)
  = flat_map (stage (rev cs ++ done)) l.
Proof.
  intros L. induction cs as [|p cs IH]; intros H done; [reflexivity|]. cbn [fold_left rev].
  rewrite <- app_assoc. cbn [app]. rewrite <- IH; [|intros q I; apply H; right; exact I]. f_equal.
  pose proof (stage_items done p l (H p (or_introl eq_refl)) L []) as C.
  rewrite !app_nil_r in C. rewrite C. reflexivity.
Qed.

Lemma fold_cmds t : replace_greek_commands t
  = fold_left (fun t p => replace (fst p) (snd p) t) cmds t.
Proof.
  unfold replace_greek_commands, cmds. generalize greek_commands. intros l. revert t.
  induction l as [|p l IH]; intros t; [reflexivity|]. cbn [fold_left map fst snd]. apply IH.
Qed.

Lemma replaced_items l : Forall item_ok l ->
  replace_greek_commands (flat_map (stage []) l) = flat_map (stage cmds) l.
Proof.
  intros L. rewrite fold_cmds, fold_stage by auto. rewrite app_nil_r.
  induction L as [|i l I L IH]; [reflexivity|]. cbn [flat_map]. rewrite IH. f_equal.
  destruct i as [t|p]; [reflexivity|]. cbn [stage item_ok] in *.
  assert (D : forall ps, In p ps -> doneb ps p = true).
  { intros ps J. unfold doneb. apply existsb_exists. exists p. rewrite !text_eqb_refl. auto. }
  rewrite !D; [reflexivity|exact I|apply -> in_rev; exact I].
Qed.

Definition piece_item (p : piece) : item :=
  match p with PText t => inl t | _ => inr (piece_text p, piece_name p) end.

Lemma piece_item_ok p : piece_ok p -> item_ok (piece_item p).
Proof.
  destruct p as [t|x|x|]; cbn [piece_ok piece_item item_ok]; intros H.
  - apply H.
  - assert (A : forallb (fun x => doneb cmds (piece_text (PSmall x), piece_name (PSmall x))) greek_alphabet = true)
      by (vm_compute; reflexivity).
    rewrite forallb_forall in A. apply A in H. unfold doneb in H. apply existsb_exists in H as (q & Q & E).
    apply andb_prop in E as [E1 E2]. apply text_eqb_spec in E1, E2. destruct q as [a b].
    cbn [fst snd] in E1, E2. subst a b. exact Q.
  - assert (A : forallb (fun x => doneb cmds (piece_text (PCapital x), piece_name (PCapital x))) greek_alphabet = true)
      by (vm_compute; reflexivity).
    rewrite forallb_forall in A. apply A in H. unfold doneb in H. apply existsb_exists in H as (q & Q & E).
    apply andb_prop in E as [E1 E2]. apply text_eqb_spec in E1, E2. destruct q as [a b].
    cbn [fst snd] in E1, E2. subst a b. exact Q.
  - assert (A : doneb cmds (piece_text PBlank, piece_name PBlank) = true) by (vm_compute; reflexivity).
    unfold doneb in A. apply existsb_exists in A as (q & Q & E).
    apply andb_prop in E as [E1 E2]. apply text_eqb_spec in E1, E2. destruct q as [a b].
    cbn [fst snd] in E1, E2. subst a b. exact Q.
Qed.

Lemma replaced_pieces l : Forall piece_ok l ->
  replace_greek_commands (quoted (flat_map piece_text l)) = quoted (flat_map piece_name l).
Proof.
  intros L. set (q := inl [dquote] : item).
  assert (I : Forall item_ok (q :: map piece_item l ++ [q])).
  { constructor; [reflexivity|]. apply Forall_app. split; [|repeat constructor].
    apply Forall_map. eapply Forall_impl; [|exact L]. intros p. apply piece_item_ok. }
  pose proof (replaced_items _ I) as R.
  cbn [flat_map stage q app] in R. rewrite !flat_map_app in R. cbn [flat_map stage q app] in R.
  assert (A : flat_map (stage []) (map piece_item l) = flat_map piece_text l).
  { rewrite !flat_map_concat_map, map_map. f_equal. apply map_ext. intros [t|x|x|]; reflexivity. }
  assert (B : flat_map (stage cmds) (map piece_item l) = flat_map piece_name l).
  { rewrite !flat_map_concat_map, map_map. f_equal. apply map_ext_in. intros p J.
    assert (D : forall p, In p cmds -> doneb cmds p = true).
    { intros c K. unfold doneb. apply existsb_exists. exists c. rewrite !text_eqb_refl. auto. }
    rewrite Forall_forall in L. apply L, piece_item_ok in J.
    destruct p as [t|x|x|]; [reflexivity| | |]; cbn [piece_item stage item_ok] in *;
      rewrite (D _ J); reflexivity. }
  rewrite A, B in R. exact R.
Qed.

(** A quoted text without marks stays. *)
Lemma clean_piece p : piece_ok p -> clean (piece_text p) (piece_text p).
Proof.
  destruct p as [t|x|x|]; cbn [piece_ok piece_text]; intros H.
  - apply clean_plain, H.
  - apply clean_app; [exact clean_command|]. apply clean_plain.
    assert (A : forallb (fun x => no_backslash (capital (chars x) ++ chars "]")) greek_alphabet = true)
      by (vm_compute; reflexivity).
    rewrite forallb_forall in A. apply A, H.
  - change (chars "\[Capital" ++ capital (chars x) ++ chars "]")
      with (chars "\[" ++ chars "Capital" ++ capital (chars x) ++ chars "]").
    apply clean_app; [exact clean_command|]. apply clean_plain.
    assert (A : forallb (fun x => no_backslash (chars "Capital" ++ capital (chars x) ++ chars "]")) greek_alphabet = true)
      by (vm_compute; reflexivity).
    rewrite forallb_forall in A. apply A, H.
  - change (chars "\[DottedSquare]") with (chars "\[" ++ chars "DottedSquare]").
    apply clean_app; [exact clean_command|]. apply clean_plain. reflexivity.
Qed.

Lemma clean_pieces l : Forall piece_ok l -> clean (quoted (flat_map piece_text l)) (quoted (flat_map piece_text l)).
Proof.
  intros L. unfold quoted. apply (clean_app [dquote] [dquote]); [apply clean_char; reflexivity|].
  apply clean_app; [|apply clean_char; reflexivity].
  induction L as [|p l P L IH]; [exact clean_nil|]. cbn [flat_map]. apply clean_app; [apply clean_piece, P|exact IH].
Qed.

Definition literal_char (c : ascii) : bool :=
  negb ((c =? dquote)%char || (c =? backslash)%char || (c =? "010")%char || (c =? "013")%char).

Lemma plain_quoted_ok s : forallb literal_char s = true -> plain_quoted (quoted s) = Some s.
Proof.
  intros H. unfold plain_quoted, quoted.
  change (is_quote dquote) with true. cbv iota. rewrite rev_app_distr. cbn [rev app].
  rewrite Ascii.eqb_refl. cbn [andb].
  assert (F : forallb (fun c => negb ((c =? dquote)%char || (c =? backslash)%char
                || (c =? "010")%char || (c =? "013")%char)) (rev s) = true).
  { rewrite forallb_forall in *. intros c I. apply in_rev in I. exact (H c I). }
  rewrite F, rev_involutive. reflexivity.
Qed.

Lemma no_break s c : forall p, single_spaces p s = true -> In c s ->
  (c =? "010")%char = false /\ (c =? "013")%char = false.
Proof.
  induction s as [|x s IH]; intros p S I; [contradiction|].
  rewrite single_cons in S. destruct I as [->|I].
  - split.
    + destruct ((c =? "010")%char) eqn:E1; [|reflexivity].
      apply Ascii.eqb_eq in E1. subst c. vm_compute in S. discriminate.
    + destruct ((c =? "013")%char) eqn:E1; [|reflexivity].
      apply Ascii.eqb_eq in E1. subst c. vm_compute in S. discriminate.
  - destruct (is_space x).
    + apply andb_prop in S as [_ S]. eapply IH; eassumption.
    + eapply IH; eassumption.
Qed.

Lemma piece_literal l : Forall piece_ok l -> single_spaces false (flat_map piece_text l ++ [dquote]) = true ->
  forallb literal_char (flat_map piece_name l) = true.
Proof.
  intros L S. apply forallb_forall. intros c I. apply in_flat_map in I as (p & P & I).
  rewrite Forall_forall in L. pose proof (L p P) as K.
  destruct p as [t|x|x|]; cbn [piece_ok piece_name] in *.
  - destruct K as [B Q]. unfold no_backslash in B. rewrite forallb_forall in B, Q.
    pose proof (B c I) as Bc. pose proof (Q c I) as Qc. apply negb_true_iff in Bc, Qc.
    assert (M : In c (flat_map piece_text l ++ [dquote])).
    { apply in_or_app. left. apply in_flat_map. exists (PText t). auto. }
    destruct (no_break _ c false S M) as [N1 N2]. unfold literal_char. rewrite Bc, Qc, N1, N2. reflexivity.
  - assert (A : forallb (fun x => forallb literal_char (chars x)) greek_alphabet = true)
      by (vm_compute; reflexivity).
    rewrite forallb_forall in A. specialize (A x K). rewrite forallb_forall in A. apply A, I.
  - assert (A : forallb (fun x => forallb literal_char (capital (chars x))) greek_alphabet = true)
      by (vm_compute; reflexivity).
    rewrite forallb_forall in A. specialize (A x K). rewrite forallb_forall in A. apply A, I.
  - contradiction.
Qed.

(** ** Calls with several groups of arguments *)
Definition group_toks (sp : bool) (g : exp * list exp) : list token :=
  TLbrace :: toks sp 1 (fst g) ++ flat_map (fun x => comma_toks sp ++ toks sp 1 x) (snd g) ++ [TRbrace].

Lemma group_call f g : word f -> group_ok g -> words_ok (ECall f (fst g) (snd g)).
Proof.
  intros F [A L]. cbn [words_ok]. split; [exact F|]. split; [exact A|].
  induction L; cbn [fold_right]; auto.
Qed.

Lemma a_word : word (chars "f").
Proof. split; [discriminate|reflexivity]. Qed.

Lemma show_groups sp gs : show_toks (flat_map (group_toks sp) gs) = flat_map (show_group sp) gs.
Proof.
  induction gs as [|g gs IH]; [reflexivity|]. cbn [flat_map]. rewrite show_app, IH. f_equal.
  destruct g as [a l]. pose proof (show_toks_exp sp (ECall (chars "f") a l) 1) as H.
  cbn [toks show] in H. rewrite show_cons in H. cbn [show_tok] in H.
  unfold group_toks, show_group. cbn [fst snd]. cbn [app chars list_ascii_of_string] in H.
  injection H as H. rewrite show_cons, H. cbn [map sep_by].
  rewrite (flat_map_concat_map _ (map (show sp 1) l)), map_map, <- flat_map_concat_map, <- !app_assoc.
  reflexivity.
Qed.

Lemma lexable_groups sp gs : Forall group_ok gs ->
  lexable (flat_map (group_toks sp) gs) /\ first_word (flat_map (group_toks sp) gs) = false.
Proof.
  induction 1 as [|g gs G GS [IH1 IH2]]; [split; [split; constructor|reflexivity]|].
  cbn [flat_map]. split; [|reflexivity]. apply lexable_app; [|exact IH1|rewrite IH2; apply andb_false_r].
  pose proof (lexable_exp sp _ 1 (group_call _ g a_word G)) as [L1 L2]. cbn [toks] in L1, L2.
  split; [inversion L1; assumption|]. apply L2.
Qed.
Lemma groups_read sp f gs : Forall group_ok gs -> forall args,
  settles (fun n => p_func n f args (map Ok (flat_map (group_toks sp) gs)))
          (Ok (NFunc f (args ++ map group_arg gs), map Ok [])).
Proof.
  induction 1 as [|g gs G GS IH]; intros args.
  - apply settles_now. intros n. cbn. rewrite app_nil_r. reflexivity.
  - destruct g as [a l]. cbn [flat_map]. set (rest := flat_map (group_toks sp) gs) in *.
    set (more := flat_map (fun x => comma_toks sp ++ toks sp 1 x) l ++ TRbrace :: rest).
    assert (E : group_toks sp (a, l) ++ rest = TLbrace :: toks sp 1 a ++ more).
    { unfold group_toks, more. cbn [fst snd app]. rewrite <- !app_assoc. reflexivity. }
    rewrite E.
    eapply settles_step with
      (g := fun n => do (b, s) <- p_expr n false (map Ok (toks sp 1 a ++ more));
                     do (arg, s) <- p_args n (inl b) s;
                     do t <- cur s;
                     do s <- match t with TRbrace => advance s | _ => Ok s end;
                     p_func n f (args ++ [arg]) s).
    { intros n. cbn [p_func]. rewrite tok_nth. cbn [nth_error]. rewrite advance_ok.
      reflexivity. }
    apply (settles_bind _
      (fun (p : node * stream) n => let (b, s) := p in
         do (arg, s) <- p_args n (inl b) s;
         do t <- cur s;
         do s <- match t with TRbrace => advance s | _ => Ok s end;
         p_func n f (args ++ [arg]) s) (tree a, map Ok more)).
    { apply expr_in_call; [apply reads_all|]. unfold more. destruct l; [exact I|]. destruct sp; exact I. }
    assert (L : Forall (reads_expr sp) l) by (apply Forall_forall; intros x _; apply reads_all).
    pose proof (args_read sp l L (inl (tree a)) rest) as H. fold more in H.
    eapply (settles_bind _
      (fun (p : (node + list node) * stream) n => let (arg, s) := p in
         do t <- cur s;
         do s <- match t with TRbrace => advance s | _ => Ok s end;
         p_func n f (args ++ [arg]) s)); [exact H|].
    eapply settles_ext.
    { intros n. cbv beta iota. rewrite cur_ok. cbn [rbind]. rewrite advance_ok. cbn [rbind tl]. reflexivity. }
    specialize (IH (args ++ [group_arg (a, l)])). rewrite <- app_assoc in IH. cbn [app] in IH.
    unfold group_arg in IH at 1. cbn [fst snd] in IH. destruct l; exact IH.
Qed.

Lemma tidy_groups sp gs : tidy_toks false (flat_map (group_toks sp) gs) = true.
Proof.
  induction gs as [|[a l] gs IH]; [reflexivity|]. cbn [flat_map].
  pose proof (tidy_exp sp (ECall (chars "f") a l) 1 false (flat_map (group_toks sp) gs)) as T.
  rewrite IH in T. exact T.
Qed.

Lemma plain_groups sp gs : Forall group_ok gs -> Forall plain_tok (flat_map (group_toks sp) gs).
Proof.
  induction 1 as [|g gs G GS IH]; [constructor|]. cbn [flat_map]. apply Forall_app. split; [|exact IH].
  pose proof (plain_exp sp _ 1 (group_call _ g a_word G)) as P. inversion P; assumption.
Qed.

Lemma clean_groups sp gs : Forall group_ok gs ->
  clean (flat_map (show_group sp) gs) (flat_map (show_group sp) gs).
Proof.
  induction 1 as [|g gs G GS IH]; [exact clean_nil|]. cbn [flat_map]. apply clean_app; [|exact IH].
  pose proof (clean_exp sp _ 1 (group_call _ g a_word G)) as C.
  assert (E : show sp 1 (ECall (chars "f") (fst g) (snd g)) = chars "f" ++ show_group sp g).
  { pose proof (show_groups sp [g]) as S. cbn [flat_map] in S. rewrite !app_nil_r in S.
    rewrite <- S, <- show_toks_exp. reflexivity. }
  rewrite E in C. intros rest. specialize (C rest). rewrite <- !app_assoc in C.
  rewrite (clean_word _ a_word) in C. apply app_inv_head in C. exact C.
Qed.

Section Values.
Context {O : PyOps}.

Theorem read_greek_name l : Forall piece_ok l -> quotable (flat_map piece_text l) ->
  single_spaces false (flat_map piece_text l ++ [dquote]) = true ->
  settles (fun n => parse_str n (quoted (flat_map piece_text l))) (Ok (VS (flat_map piece_name l))).
Proof.
  intros L Q S. exists 3. intros n N. unfold parse_str.
  assert (E : normalise (quoted (flat_map piece_text l)) = quoted (flat_map piece_text l)).
  { unfold normalise. change (chars "\\ReleaseHold") with mark.
    pose proof (clean_pieces l L []) as C. rewrite !app_nil_r in C.
    replace (quoted (flat_map piece_text l) ++ replace mark [] [])
      with (quoted (flat_map piece_text l)) in C by (cbn; rewrite app_nil_r; reflexivity).
    rewrite C. apply tidy_words. exact S. }
  rewrite E. pose proof (lex_name_apart _ [] Q) as X. rewrite app_nil_r in X. rewrite X.
  change (lex []) with (@nil (res token)). rewrite parse_single by exact N. cbn [rbind visit].
  rewrite replaced_pieces by exact L. unfold literal_eval.
  rewrite plain_quoted_ok by (apply piece_literal; assumption). reflexivity.
Qed.

(** Only the first group of arguments counts, except for Derivative. *)
Definition group_vals (g : exp * list exp) : res val + list (res val) :=
  match group_arg g with inl b => inl (visit b) | inr l => inr (map visit l) end.
Lemma visit_groups f g gs :
  visit (NFunc f (map group_arg (g :: gs)))
  = if text_eqb f (chars "Derivative")
    then do e <- derivative_value (map group_arg (g :: gs)) (map group_vals (g :: gs)); Ok (VE e)
    else do x <- meaning (ECall f (fst g) (snd g)); Ok (VE x).
Proof.
  rewrite <- visit_exp. destruct g as [a l]. cbn [visit tree fst snd map].
  destruct (text_eqb f (chars "Derivative")).
  { rewrite (map_map group_arg (fun g => match g with inl b => inl (visit b) | inr l => inr (map visit l) end)). reflexivity. }
  unfold group_arg at 1. cbn [fst snd]. destruct l; reflexivity.
Qed.

Theorem read_groups sp f g gs : word f -> group_ok g -> Forall group_ok gs ->
  settles (fun n => parse_str n (f ++ flat_map (show_group sp) (g :: gs)))
    (if text_eqb f (chars "Derivative")
     then do e <- derivative_value (map group_arg (g :: gs)) (map group_vals (g :: gs)); Ok (VE e)
     else do x <- meaning (ECall f (fst g) (snd g)); Ok (VE x)).
Proof.
  intros F G GS. rewrite <- visit_groups.
  assert (A : Forall group_ok (g :: gs)) by (constructor; assumption).
  set (l := g :: gs) in *. unfold parse_str.
  assert (E : normalise (f ++ flat_map (show_group sp) l) = f ++ flat_map (show_group sp) l).
  { unfold normalise. change (chars "\\ReleaseHold") with mark.
    pose proof (clean_app _ _ _ _ (clean_word f F) (clean_groups sp l A) []) as C.
    rewrite !app_nil_r in C.
    replace ((f ++ flat_map (show_group sp) l) ++ replace mark [] [])
      with (f ++ flat_map (show_group sp) l) in C by (cbn; rewrite app_nil_r; reflexivity).
    rewrite C. apply tidy_words. rewrite spaces_word by exact F.
    rewrite <- show_groups, spaces_toks by (apply plain_groups, A). apply tidy_groups. }
  rewrite E.
  assert (T : f ++ flat_map (show_group sp) l = show_toks (TExpr f :: flat_map (group_toks sp) l)).
  { rewrite show_cons, show_groups. reflexivity. }
  destruct (lexable_groups sp l A) as [L1 L2].
  rewrite T, lex_shown by (apply lexable_cons; [exact F|rewrite L2; apply andb_false_r|exact L1]).
  apply (settles_bind _ (fun a _ => visit a) (NFunc f (map group_arg l))); [|apply settles_const].
  assert (H : settles (fun n => p_expr n false (map Ok (TExpr f :: flat_map (group_toks sp) l)))
                (Ok (NFunc f (map group_arg l), map Ok (unws [])))).
  { apply expr_by_head; [discriminate|exact I|].
    eapply settles_ext; [|apply (groups_read sp f l A [])].
    intros n. cbn [fhead]. rewrite tok_nth. cbn [nth_error]. rewrite advance_ok. reflexivity. }
  eapply settles_ext.
  { intros n. unfold parse. rewrite start_ok. cbn [rbind map]. reflexivity. }
  apply (settles_bind _
    (fun (p : node * stream) (n : nat) => let (r, s) := p in
       match s with [] => Ok r | _ :: _ => Err EException end) (NFunc f (map group_arg l), [])); [exact H|].
  apply settles_const.
Qed.

End Values.

(** ** Greek letters as arguments *)
Theorem greek_argument (O : PyOps) sp f v e : word f -> word v -> f <> chars "Derivative" ->
  o_sympify (chars "GREEK:" ++ v) = Err e ->
  settles (fun n => parse_str n (show sp 1 (ECall f (EGreek v) []))) (Err e).
Proof.
  intros F V D H.
  assert (W : words_ok (ECall f (EGreek v) [])) by (cbn [words_ok fold_right]; auto).
  pose proof (read_meaning sp _ W) as R. cbn [meaning] in R.
  destruct (text_eqb f (chars "Derivative")) eqn:E.
  { apply text_eqb_spec in E. contradiction. }
  cbn [each printed] in R. rewrite H in R. exact R.
Qed.

Theorem greek_argument_witness (O : PyOps) (e : exn) : o_sympify (chars "GREEK:Theta") = Err e ->
  exists s, s = chars "Sin[\[Theta]]" /\ settles (fun n => parse_str n s) (Err e).
Proof.
  intros H. eexists. split; [reflexivity|].
  apply (greek_argument O false (chars "Sin") (chars "Theta") e); try exact H; try discriminate;
    split; try discriminate; reflexivity.
Qed.

(** ** Later groups of arguments *)
Theorem group_lost (O : PyOps) sp f g gs : word f -> group_ok g -> Forall group_ok gs ->
  f <> chars "Derivative" ->
  settles (fun n => parse_str n (f ++ flat_map (show_group sp) (g :: gs)))
    (do x <- meaning (ECall f (fst g) (snd g)); Ok (VE x)).
Proof.
  intros F G GS D. pose proof (read_groups sp f g gs F G GS) as R.
  destruct (text_eqb f (chars "Derivative")) eqn:E; [|exact R].
  apply text_eqb_spec in E. contradiction.
Qed.

(** ** Derivatives *)
Section Derivatives.
Context {O : PyOps}.
Lemma order_meaning n : order_of (visit (tree n)) = do v <- meaning n; o_index v.
Proof. rewrite visit_exp. destruct (meaning n); reflexivity. Qed.
Lemma function_meaning f : function_of (group_vals (f, [])) = meaning f.
Proof. unfold function_of, group_vals, group_arg. cbn [fst snd]. rewrite visit_exp. destruct (meaning f); reflexivity. Qed.
Lemma rmap_app {X Y : Type} (f : X -> res Y) a b : rmap f (a ++ b) = do x <- rmap f a; do y <- rmap f b; Ok (x ++ y).
Proof.
  induction a as [|c a IH]; cbn [app rmap]; [destruct (rmap f b); reflexivity|]. destruct (f c); [|reflexivity]. cbn [rbind]. rewrite IH.
  destruct (rmap f a); [|reflexivity]. cbn [rbind]. destruct (rmap f b); reflexivity.
Qed.
Lemma rmap_repeat {X Y : Type} (f : X -> res Y) a b n : f a = Ok b -> rmap f (repeat a n) = Ok (repeat b n).
Proof. intros H. induction n as [|n IH]; [reflexivity|]. cbn [repeat rmap]. rewrite H, IH. reflexivity. Qed.
Lemma rmap_nth {X Y : Type} (f : X -> res Y) l es i : rmap f l = Ok es -> match nth_error l i with Some a => exists b, nth_error es i = Some b /\ f a = Ok b | None => nth_error es i = None end.
Proof.
  revert es i. induction l as [|a l IH]; intros es i H; cbn [rmap] in H.
  - injection H as <-. destruct i; reflexivity.
  - destruct (f a) as [b|] eqn:E; [|discriminate]. cbn [rbind] in H. destruct (rmap f l) as [es'|]; [|discriminate]. injection H as <-.
    destruct i as [|i]; cbn [nth_error]; [exists b; auto|apply IH; reflexivity].
Qed.
Lemma skipn_cons {X : Type} (l : list X) i a : nth_error l i = Some a -> skipn i l = a :: skipn (S i) l.
Proof. revert i. induction l as [|x l IH]; intros [|i] H; try discriminate; [injection H as <-; reflexivity|]. cbn [skipn]. apply IH, H. Qed.
Lemma orders_value (f : node -> res E) l es os : rmap f l = Ok es -> forall i, i + List.length os <= List.length l ->
  (do ys <- by_orders l i (map (fun n => visit (tree n)) os); rmap f ys) =
  (do ns <- each (fun n => do v <- meaning n; o_index v) os; Ok (flat_map (fun p => repeat (fst p) (snd p)) (combine (skipn i es) ns))).
Proof.
  intros H. assert (Le : List.length es = List.length l).
  { clear -H. revert es H. induction l as [|a l IH]; intros es H; cbn [rmap] in H; [injection H as <-; reflexivity|].
    destruct (f a); [|discriminate]. cbn [rbind] in H. destruct (rmap f l); [|discriminate]. injection H as <-. cbn [List.length]. rewrite IH; reflexivity. }
  induction os as [|o os IH]; intros i Hi; cbn [map by_orders each List.length] in *.
  - cbn [rbind rmap]. destruct (skipn i es); reflexivity.
  - rewrite order_meaning. destruct (meaning o) as [v|]; [|reflexivity]. cbn [rbind]. destruct (o_index v) as [n|]; [|reflexivity]. cbn [rbind].
    assert (X := rmap_nth f l es i H). destruct (nth_error l i) as [a|] eqn:Ea; [|apply nth_error_None in Ea; lia]. destruct X as (b & Eb & Fb).
    assert (A1 : match n with 0 => Ok [] | S _ => Ok (repeat a n) end = Ok (repeat a n)) by (destruct n; reflexivity).
    rewrite A1. cbn [rbind]. specialize (IH (S i) ltac:(lia)). rewrite (skipn_cons es i b Eb).
    destruct (by_orders l (S i) (map (fun n0 => visit (tree n0)) os)) as [ys|]; cbn [rbind] in IH |- *.
    + rewrite rmap_app, (rmap_repeat f a b n Fb). cbn [rbind]. rewrite IH. destruct (each _ os) as [ns|]; [|reflexivity]. reflexivity.
    + destruct (each _ os) as [ns|]; [discriminate IH|]. cbn [rbind] in IH |- *. injection IH as <-. reflexivity.
Qed.
Lemma derivative_groups ns f xs : List.length (snd ns) = List.length (snd xs) \/ 1 <= List.length (snd ns) <= List.length (snd xs) ->
  derivative_value (map group_arg [ns; (f, []); xs]) (map group_vals [ns; (f, []); xs]) = derivative_meaning ns f xs.
Proof.
  intros Hl. destruct ns as [o os], xs as [x xs]. cbn [fst snd] in Hl. unfold derivative_value, derivative_meaning. cbn [map nth_error fst snd].
  unfold group_arg at 1. cbn [fst snd]. destruct xs as [|y xs].
  - destruct os; [|cbn [List.length] in Hl; lia]. rewrite function_meaning. destruct (meaning f) as [h|]; [|reflexivity]. cbn [rbind each]. rewrite repr_printed. destruct (o_sympify (printed x)) as [e|]; [|reflexivity]. cbn [rbind].
    destruct (o_function h [e]) as [d|]; [|reflexivity]. cbn [rbind].
    unfold group_vals, group_arg. cbn [fst snd]. rewrite order_meaning. destruct (meaning o); [|reflexivity]. cbn [rbind]. destruct (o_index _) as [n|]; [|reflexivity]. cbn [rbind combine flat_map fst snd]. rewrite app_nil_r. reflexivity.
  - destruct os as [|o1 os]; [cbn [List.length] in Hl; lia|]. rewrite function_meaning. destruct (meaning f) as [h|]; [|reflexivity]. cbn [rbind]. change (tree x :: map tree (y :: xs)) with (map tree (x :: y :: xs)).
    assert (M : rmap (fun a => o_sympify (repr a)) (map tree (x :: y :: xs)) = each (fun x => o_sympify (printed x)) (x :: y :: xs)).
    { rewrite (rmap_map tree (fun a => o_sympify (repr a))). apply each_rmap. intros z. rewrite repr_printed. reflexivity. }
    rewrite M. destruct (each (fun x => o_sympify (printed x)) (x :: y :: xs)) as [es|] eqn:Es; [|reflexivity]. cbn [rbind].
    destruct (o_function h es) as [d|]; [|reflexivity]. cbn [rbind].
    unfold group_vals, group_arg. cbn [fst snd]. change (tree o :: map tree (o1 :: os)) with (map tree (o :: o1 :: os)). rewrite map_map.
    assert (R := orders_value _ _ es (o :: o1 :: os) M 0 ltac:(rewrite map_length; cbn [List.length] in *; lia)). cbn [skipn] in R.
    destruct (by_orders _ 0 _) as [ys|]; cbn [rbind] in R |- *.
    + rewrite R. destruct (each _ (o :: o1 :: os)); reflexivity.
    + destruct (each _ (o :: o1 :: os)) as [q|]; [discriminate R|]. cbn [rbind] in R |- *. injection R as <-. reflexivity.
Qed.
Lemma orders_beyond l os ns : each (fun n => do v <- meaning n; o_index v) os = Ok ns -> forall i,
  (exists j n, nth_error ns j = Some (S n) /\ List.length l <= i + j) -> by_orders l i (map (fun n => visit (tree n)) os) = Err EIndexError.
Proof.
  revert ns. induction os as [|o os IH]; intros ns H i (j & n & Hj & Hl); cbn [each] in H; [injection H as <-; destruct j; discriminate Hj|].
  destruct (do v <- meaning o; o_index v) as [k|] eqn:Ek; [|discriminate H]. cbn [rbind] in H. destruct (each _ os) as [ks|] eqn:Es; [|discriminate H]. injection H as <-.
  cbn [map by_orders]. rewrite order_meaning, Ek. cbn [rbind]. destruct j as [|j]; cbn [nth_error] in Hj.
  - injection Hj as ->. assert (X : nth_error l i = None) by (apply nth_error_None; lia). rewrite X. reflexivity.
  - assert (X : by_orders l (S i) (map (fun n => visit (tree n)) os) = Err EIndexError) by (apply (IH ks eq_refl); exists j, n; split; [exact Hj|lia]).
    rewrite X. destruct k; [reflexivity|]. destruct (nth_error l i); reflexivity.
Qed.
Lemma derivative_functions ns f g fs xs : derivative_value (map group_arg [ns; (f, g :: fs); xs]) (map group_vals [ns; (f, g :: fs); xs]) = Err EAttributeError.
Proof. destruct ns as [o os], xs as [x xs]. unfold derivative_value. cbn [map nth_error fst snd]. unfold group_arg at 1. cbn [fst snd]. destruct xs; reflexivity. Qed.
Lemma derivative_unequal ns f xs h es e : meaning f = Ok h -> each (fun x => o_sympify (printed x)) (fst xs :: snd xs) = Ok es -> o_function h es = Ok e ->
  (snd ns = [] -> snd xs <> [] -> derivative_value (map group_arg [ns; (f, []); xs]) (map group_vals [ns; (f, []); xs]) = Err ETypeError) /\
  (snd ns <> [] -> snd xs = [] -> derivative_value (map group_arg [ns; (f, []); xs]) (map group_vals [ns; (f, []); xs]) = Err EAttributeError) /\
  (forall os i n, snd ns <> [] -> snd xs <> [] -> each (fun n => do v <- meaning n; o_index v) (fst ns :: snd ns) = Ok os ->
     nth_error os i = Some (S n) -> S (List.length (snd xs)) <= i ->
     derivative_value (map group_arg [ns; (f, []); xs]) (map group_vals [ns; (f, []); xs]) = Err EIndexError).
Proof.
  destruct ns as [o os], xs as [x xs]. cbn [fst snd]. intros Hf Hx He. unfold derivative_value. cbn [map nth_error fst snd].
  rewrite function_meaning, Hf. cbn [rbind]. unfold group_arg at 1 2 3. cbn [fst snd].
  destruct xs as [|y xs].
  - split; [intros _ N; contradiction|]. split; [|intros ? ? ? ? N; contradiction]. intros N _. destruct os as [|o1 os]; [contradiction|].
    cbn [each] in Hx. rewrite repr_printed. destruct (o_sympify (printed x)) as [e'|]; [|discriminate Hx]. cbn [rbind] in *. injection Hx as <-. rewrite He. reflexivity.
  - change (tree x :: map tree (y :: xs)) with (map tree (x :: y :: xs)).
    assert (M : rmap (fun a => o_sympify (repr a)) (map tree (x :: y :: xs)) = each (fun x => o_sympify (printed x)) (x :: y :: xs)).
    { rewrite (rmap_map tree (fun a => o_sympify (repr a))). apply each_rmap. intros z. rewrite repr_printed. reflexivity. }
    rewrite M, Hx. cbn [rbind]. rewrite He. cbn [rbind]. split; [intros -> _; reflexivity|]. split; [intros _ N; discriminate N|].
    intros ns i n Ho _ Hn Hi Hl. destruct os as [|o1 os]; [contradiction|]. unfold group_vals, group_arg. cbn [fst snd]. change (tree o :: map tree (o1 :: os)) with (map tree (o :: o1 :: os)). rewrite map_map.
    rewrite (orders_beyond _ _ ns Hn); [reflexivity|]. exists i, n. split; [exact Hi|]. rewrite map_length. cbn [List.length] in *. lia.
Qed.
Lemma derivative_short gs : List.length gs < 3 -> derivative_value (map group_arg gs) (map group_vals gs) = Err EIndexError.
Proof. destruct gs as [|a [|b [|c gs]]]; intros H; try reflexivity. cbn in H. lia. Qed.
End Derivatives.

Theorem groups_of_derivative (O : PyOps) sp ns f xs : group_ok ns -> words_ok f -> group_ok xs ->
  List.length (snd ns) = List.length (snd xs) \/ 1 <= List.length (snd ns) <= List.length (snd xs) ->
  settles (fun n => parse_str n (chars "Derivative" ++ flat_map (show_group sp) [ns; (f, []); xs]))
    (do e <- derivative_meaning ns f xs; Ok (VE e)).
Proof.
  intros G F X Hl. rewrite <- (derivative_groups ns f xs Hl). apply (read_groups sp (chars "Derivative")).
  - split; [discriminate|reflexivity].
  - exact G.
  - apply Forall_cons; [split; [exact F|apply Forall_nil]|]. apply Forall_cons; [exact X|apply Forall_nil].
Qed.
Lemma derivative_read (O : PyOps) sp ns f xs r : group_ok ns -> group_ok f -> group_ok xs ->
  derivative_value (map group_arg [ns; f; xs]) (map group_vals [ns; f; xs]) = r ->
  settles (fun n => parse_str n (chars "Derivative" ++ flat_map (show_group sp) [ns; f; xs])) (do e <- r; Ok (VE e)).
Proof.
  intros G F X <-. apply (read_groups sp (chars "Derivative")).
  - split; [discriminate|reflexivity].
  - exact G.
  - apply Forall_cons; [exact F|]. apply Forall_cons; [exact X|apply Forall_nil].
Qed.
Theorem derivative_refused (O : PyOps) sp ns f xs h es e : group_ok ns -> words_ok f -> group_ok xs ->
  meaning f = Ok h -> each (fun x => o_sympify (printed x)) (fst xs :: snd xs) = Ok es -> o_function h es = Ok e ->
  let value := settles (fun n => parse_str n (chars "Derivative" ++ flat_map (show_group sp) [ns; (f, []); xs])) in
  (snd ns = [] -> snd xs <> [] -> value (Err ETypeError)) /\
  (snd ns <> [] -> snd xs = [] -> value (Err EAttributeError)) /\
  (forall os i n, snd ns <> [] -> snd xs <> [] -> each (fun n => do v <- meaning n; o_index v) (fst ns :: snd ns) = Ok os ->
     nth_error os i = Some (S n) -> S (List.length (snd xs)) <= i -> value (Err EIndexError)).
Proof.
  intros G F X Hf Hx He. assert (F' : group_ok (f, [])) by (split; [exact F|apply Forall_nil]).
  destruct (derivative_unequal ns f xs h es e Hf Hx He) as (A1 & A2 & A3). split; [|split].
  - intros H1 H2. exact (derivative_read O sp ns (f, []) xs _ G F' X (A1 H1 H2)).
  - intros H1 H2. exact (derivative_read O sp ns (f, []) xs _ G F' X (A2 H1 H2)).
  - intros os i n H1 H2 H3 H4 H5. exact (derivative_read O sp ns (f, []) xs _ G F' X (A3 os i n H1 H2 H3 H4 H5)).
Qed.
Theorem derivative_two_functions (O : PyOps) sp ns f g fs xs : group_ok ns -> group_ok (f, g :: fs) -> group_ok xs ->
  settles (fun n => parse_str n (chars "Derivative" ++ flat_map (show_group sp) [ns; (f, g :: fs); xs])) (Err EAttributeError).
Proof. intros G F X. exact (derivative_read O sp ns (f, g :: fs) xs _ G F X (derivative_functions ns f g fs xs)). Qed.
Theorem short_derivative (O : PyOps) sp g gs : group_ok g -> Forall group_ok gs -> List.length gs < 2 ->
  settles (fun n => parse_str n (chars "Derivative" ++ flat_map (show_group sp) (g :: gs))) (Err EIndexError).
Proof.
  intros G GS Hl. change (@Err val EIndexError) with (rbind (@Err E EIndexError) (fun e => Ok (VE e))).
  rewrite <- (derivative_short (g :: gs)) by (cbn [List.length]; lia). apply (read_groups sp (chars "Derivative")); [|exact G|exact GS].
  split; [discriminate|reflexivity].
Qed.

Theorem group_lost_witness (O : PyOps) :
  exists r, settles (fun n => parse_str n (chars "f[x][y]")) r
         /\ settles (fun n => parse_str n (chars "f[x][z, t]")) r.
Proof.
  exists (do x <- meaning (ECall (chars "f") (EWord (chars "x")) []); Ok (VE x)). split.
  - apply (group_lost O false (chars "f") (EWord (chars "x"), []) [(EWord (chars "y"), [])]);
      repeat split; try discriminate; repeat constructor; discriminate.
  - apply (group_lost O true (chars "f") (EWord (chars "x"), []) [(EWord (chars "z"), [EWord (chars "t")])]);
      repeat split; try discriminate; repeat constructor; discriminate.
Qed.

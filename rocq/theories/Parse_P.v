(** The parser reads back what is written. *)
From Verif Require Import Base LexM ParseM SpecParse Lex_P.
From Coq Require Import Ascii.
Import List.

(** ** Streams without errors *)
Lemma raised_ok (o : option token) : raised (option_map Ok o) = None.
Proof. destruct o; reflexivity. Qed.

Lemma nth_map (ts : list token) i : nth_error (map (@Ok token) ts) i = option_map Ok (nth_error ts i).
Proof. apply nth_error_map. Qed.

Lemma advance_ok (ts : list token) : advance (map Ok ts) = Ok (map Ok (tl ts)).
Proof.
  unfold advance. replace (tl (map (@Ok token) ts)) with (map (@Ok token) (tl ts)).
  - rewrite nth_map, raised_ok. reflexivity.
  - destruct ts; reflexivity.
Qed.

Lemma tok_nth (ts : list token) i : tok i (map Ok ts) = nth_error ts i.
Proof. unfold tok. rewrite nth_map. destruct (nth_error ts i); reflexivity. Qed.

Lemma cur_ok t (ts : list token) : cur (map Ok (t :: ts)) = Ok t.
Proof. reflexivity. Qed.

Definition unws (ts : list token) : list token :=
  match ts with TWhitespace :: ts' => ts' | _ => ts end.

Definition not_ws (ts : list token) : Prop :=
  match ts with [] => False | TWhitespace :: _ => False | _ => True end.

Lemma skip_none ts : not_ws ts -> skip_white (map Ok ts) = Ok (map Ok ts).
Proof. destruct ts as [|[]]; cbn; intros H; try contradiction; reflexivity. Qed.

Lemma skip_ws ts : not_ws ts ->
  skip_white (map Ok (TWhitespace :: ts)) = Ok (map Ok ts).
Proof.
  intros H. change (skip_white (map Ok (TWhitespace :: ts)))
    with (do _ <- advance (map Ok (TWhitespace :: ts)); skip_white (map Ok ts)).
  rewrite advance_ok. cbn [rbind]. apply skip_none, H.
Qed.

(** ** The tokens of an expression *)
Definition sp_toks (sp : bool) (t : token) : list token :=
  if sp then [TWhitespace; t; TWhitespace] else [t].
Definition comma_toks (sp : bool) : list token :=
  if sp then [TComma; TWhitespace] else [TComma].
Definition paren_toks (b : bool) (ts : list token) : list token :=
  if b then TLparen :: ts ++ [TRparen] else ts.

Fixpoint toks (sp : bool) (lvl : nat) (e : exp) : list token :=
  match e with
  | EWord v => [TExpr v]
  | EAdd a b => paren_toks (1 <? lvl) (toks sp 1 a ++ sp_toks sp TPlus ++ toks sp 2 b)
  | ESub a b => paren_toks (1 <? lvl) (toks sp 1 a ++ sp_toks sp TMinus ++ toks sp 2 b)
  | EMul a b => paren_toks (2 <? lvl) (toks sp 2 a ++ TMultiply :: toks sp 3 b)
  | EDiv a b => paren_toks (2 <? lvl) (toks sp 2 a ++ TDivide :: toks sp 3 b)
  | ENeg a => paren_toks (3 <? lvl) (TMinus :: toks sp 3 a)
  | EPow a b => paren_toks (3 <? lvl) (toks sp 4 a ++ TPower :: toks sp 3 b)
  | ECall f a l =>
      TExpr f :: TLbrace
      :: toks sp 1 a ++ flat_map (fun x => comma_toks sp ++ toks sp 1 x) l ++ [TRbrace]
  | EGreek v => [TCommand; TLbrace; TExpr v; TRbrace]
  | EParen a => paren_toks true (toks sp 1 a)
  | EBy a b => paren_toks (2 <? lvl) (toks sp 2 a ++ TWhitespace :: toks sp (by_lvl b) b)
  | EPowS a b => paren_toks (3 <? lvl) (toks sp 4 a ++ sp_toks true TPower ++ toks sp 3 b)
  end.

(** ** Induction over expressions with lists of arguments *)
Fixpoint exp_rect2 (P : exp -> Prop)
  (H1 : forall v, P (EWord v))
  (H2 : forall a b, P a -> P b -> P (EAdd a b))
  (H3 : forall a b, P a -> P b -> P (ESub a b))
  (H4 : forall a b, P a -> P b -> P (EMul a b))
  (H5 : forall a b, P a -> P b -> P (EDiv a b))
  (H6 : forall a b, P a -> P b -> P (EPow a b))
  (H7 : forall a, P a -> P (ENeg a))
  (H8 : forall f a l, P a -> Forall P l -> P (ECall f a l))
  (H9 : forall v, P (EGreek v))
  (H10 : forall a, P a -> P (EParen a))
  (H11 : forall a b, P a -> P b -> P (EBy a b))
  (H12 : forall a b, P a -> P b -> P (EPowS a b))
  (e : exp) : P e :=
  let R := exp_rect2 P H1 H2 H3 H4 H5 H6 H7 H8 H9 H10 H11 H12 in
  match e with
  | EWord v => H1 v
  | EAdd a b => H2 a b (R a) (R b)
  | ESub a b => H3 a b (R a) (R b)
  | EMul a b => H4 a b (R a) (R b)
  | EDiv a b => H5 a b (R a) (R b)
  | EPow a b => H6 a b (R a) (R b)
  | ENeg a => H7 a (R a)
  | ECall f a l =>
      H8 f a l (R a)
         ((fix go l : Forall P l :=
             match l with
             | [] => Forall_nil P
             | x :: l' => Forall_cons x (R x) (go l')
             end) l)
  | EGreek v => H9 v
  | EParen a => H10 a (R a)
  | EBy a b => H11 a b (R a) (R b)
  | EPowS a b => H12 a b (R a) (R b)
  end.

Lemma show_app (a b : list token) : show_toks (a ++ b) = show_toks a ++ show_toks b.
Proof. apply flat_map_app. Qed.

Lemma show_cons t ts : show_toks (t :: ts) = show_tok t ++ show_toks ts.
Proof. reflexivity. Qed.

Lemma show_sp sp t : show_toks (sp_toks sp t) = spaced sp (show_tok t).
Proof. destruct sp; cbn [sp_toks spaced]; rewrite !show_cons; cbn; rewrite ?app_nil_r; reflexivity. Qed.

Lemma show_comma sp : show_toks (comma_toks sp) = comma sp.
Proof. destruct sp; reflexivity. Qed.

Lemma show_paren b ts : show_toks (paren_toks b ts) = paren b (show_toks ts).
Proof.
  destruct b; [|reflexivity]. cbn [paren_toks paren]. rewrite show_cons, show_app.
  reflexivity.
Qed.

Lemma show_flat {A : Type} (f : A -> list token) (l : list A) :
  show_toks (flat_map f l) = flat_map (fun x => show_toks (f x)) l.
Proof. induction l; [reflexivity|]. cbn [flat_map]. rewrite show_app, IHl. reflexivity. Qed.

Lemma show_toks_exp sp e : forall lvl, show_toks (toks sp lvl e) = show sp lvl e.
Proof.
  induction e using exp_rect2; intros lvl; cbn [toks show].
  - rewrite show_cons. cbn. apply app_nil_r.
  - rewrite show_paren, !show_app, IHe1, IHe2, show_sp. reflexivity.
  - rewrite show_paren, !show_app, IHe1, IHe2, show_sp. reflexivity.
  - rewrite show_paren, !show_app, IHe1, show_cons, IHe2. reflexivity.
  - rewrite show_paren, !show_app, IHe1, show_cons, IHe2. reflexivity.
  - rewrite show_paren, !show_app, IHe1, show_cons, IHe2. reflexivity.
  - rewrite show_paren, show_cons, IHe. reflexivity.
  - rewrite !show_cons, !show_app, IHe, show_flat. cbn [show_tok].
    f_equal. f_equal. f_equal. f_equal.
    + induction H as [|x l Hx Hl IH]; [reflexivity|].
      cbn [flat_map]. rewrite IH, show_app, Hx, show_comma. reflexivity.
  - reflexivity.
  - rewrite show_paren, IHe. reflexivity.
  - rewrite show_paren, !show_app, IHe1, show_cons, IHe2. reflexivity.
  - rewrite show_paren, !show_app, IHe1, IHe2, show_sp. reflexivity.
Qed.

(** ** They can be lexed *)
Definition first_word (ts : list token) : bool :=
  match ts with t :: _ => is_word t | [] => false end.
Definition last_word (ts : list token) : bool := is_word (last ts TComma).

Lemma apart_app (a b : list token) :
  apart a -> apart b -> last_word a && first_word b = false -> apart (a ++ b).
Proof.
  induction a as [|t a IH]; intros A B E; [exact B|].
  cbn [app apart]. cbn [apart] in A. destruct A as [A1 A2].
  destruct a as [|u a].
  - cbn [app]. split; [|exact B]. destruct b; [exact I|]. exact E.
  - cbn [app] in *. split; [exact A1|]. apply IH; [exact A2|exact B|exact E].
Qed.

Lemma last_word_app (a b : list token) : b <> [] -> last_word (a ++ b) = last_word b.
Proof.
  intros N. unfold last_word. induction a as [|t a IH]; [reflexivity|].
  cbn [app]. rewrite <- IH. destruct (a ++ b) eqn:E; [|reflexivity].
  apply app_eq_nil in E as [_ E]. contradiction.
Qed.

Lemma toks_nonempty sp lvl e : toks sp lvl e <> [].
Proof.
  destruct e; cbn [toks]; try discriminate;
  match goal with |- context [paren_toks ?b _] => destruct b end;
  cbn [paren_toks]; try discriminate;
  intros E; apply app_eq_nil in E as [_ E]; try destruct sp; discriminate.
Qed.

Lemma lexable_app (a b : list token) :
  lexable a -> lexable b -> last_word a && first_word b = false -> lexable (a ++ b).
Proof.
  intros [F A] [G B] E. split; [apply Forall_app; auto|apply apart_app; auto].
Qed.

Lemma lexable_one t : tok_ok t -> lexable [t].
Proof. intros H. split; [constructor; auto|]. cbn. auto. Qed.

Lemma lexable_cons t ts :
  tok_ok t -> is_word t && first_word ts = false -> lexable ts -> lexable (t :: ts).
Proof.
  intros T E L. change (lexable ([t] ++ ts)). apply lexable_app; [apply lexable_one, T|exact L|].
  exact E.
Qed.

Lemma lexable_mid (a b : list token) (m : list token) :
  lexable a -> lexable b -> lexable m -> first_word m = false -> last_word m = false ->
  m <> [] -> lexable (a ++ m ++ b).
Proof.
  intros A B M F L N. apply lexable_app; [exact A| |].
  - apply lexable_app; [exact M|exact B|]. rewrite L. reflexivity.
  - destruct m; [congruence|]. cbn in F |- *. rewrite F. apply andb_false_r.
Qed.

Lemma lexable_paren b ts : lexable ts -> lexable (paren_toks b ts).
Proof.
  intros L. destruct b; [|exact L]. cbn [paren_toks].
  apply lexable_cons; [exact I|reflexivity|].
  apply lexable_app; [exact L|apply lexable_one; exact I|apply andb_false_r].
Qed.

Lemma sp_toks_ok sp t : tok_ok t -> is_word t = false ->
  lexable (sp_toks sp t) /\ first_word (sp_toks sp t) = false
  /\ last_word (sp_toks sp t) = false /\ sp_toks sp t <> [].
Proof.
  intros T W. destruct sp; cbn [sp_toks].
  - split; [|split; [reflexivity|split; [reflexivity|discriminate]]].
    apply lexable_cons; [exact I|reflexivity|].
    apply lexable_cons; [exact T|rewrite W; reflexivity|apply lexable_one; exact I].
  - split; [apply lexable_one, T|]. cbn. unfold last_word. cbn. rewrite W.
    split; [reflexivity|split; [reflexivity|discriminate]].
Qed.

Lemma comma_toks_ok sp :
  lexable (comma_toks sp) /\ first_word (comma_toks sp) = false
  /\ last_word (comma_toks sp) = false /\ comma_toks sp <> [].
Proof.
  destruct sp; cbn [comma_toks]; (split; [|split; [reflexivity|split; [reflexivity|discriminate]]]).
  - apply lexable_cons; [exact I|reflexivity|apply lexable_one; exact I].
  - apply lexable_one; exact I.
Qed.

(** Items each preceded by a comma. *)
Lemma lexable_commas {A : Type} sp (f : A -> list token) (l : list A) (z : list token) :
  Forall (fun x => lexable (f x)) l -> lexable z -> first_word z = false ->
  lexable (flat_map (fun x => comma_toks sp ++ f x) l ++ z)
  /\ first_word (flat_map (fun x => comma_toks sp ++ f x) l ++ z) = false.
Proof.
  intros H Z W. destruct (comma_toks_ok sp) as (C1 & C2 & C3 & C4).
  induction H as [|x l Hx Hl [IH1 IH2]]; [split; assumption|].
  cbn [flat_map]. rewrite <- !app_assoc. split.
  - apply lexable_app; [exact C1| |rewrite C3; reflexivity].
    apply lexable_app; [exact Hx|exact IH1|rewrite IH2; apply andb_false_r].
  - destruct sp; reflexivity.
Qed.

Lemma fold_and {A : Type} (P : A -> Prop) (l : list A) :
  fold_right (fun x Q => P x /\ Q) True l -> Forall P l.
Proof. induction l; [constructor|]. cbn. intros [H1 H2]. constructor; auto. Qed.

Lemma lexable_exp sp e : forall lvl, words_ok e -> lexable (toks sp lvl e).
Proof.
  induction e using exp_rect2; intros lvl W; cbn [toks]; cbn [words_ok] in W.
  - apply lexable_one, W.
  - destruct W as [W1 W2]. apply lexable_paren.
    destruct (sp_toks_ok sp TPlus I eq_refl) as (S1 & S2 & S3 & S4).
    apply lexable_mid; auto.
  - destruct W as [W1 W2]. apply lexable_paren.
    destruct (sp_toks_ok sp TMinus I eq_refl) as (S1 & S2 & S3 & S4).
    apply lexable_mid; auto.
  - destruct W as [W1 W2]. apply lexable_paren.
    apply lexable_app; [auto| |apply andb_false_r].
    apply lexable_cons; [exact I|reflexivity|auto].
  - destruct W as [W1 W2]. apply lexable_paren.
    apply lexable_app; [auto| |apply andb_false_r].
    apply lexable_cons; [exact I|reflexivity|auto].
  - destruct W as [W1 W2]. apply lexable_paren.
    apply lexable_app; [auto| |apply andb_false_r].
    apply lexable_cons; [exact I|reflexivity|auto].
  - apply lexable_paren. apply lexable_cons; [exact I|reflexivity|auto].
  - destruct W as (W1 & W2 & W3).
    apply lexable_cons; [exact W1|reflexivity|].
    apply lexable_cons; [exact I|reflexivity|].
    assert (C : lexable (flat_map (fun x => comma_toks sp ++ toks sp 1 x) l ++ [TRbrace])
       /\ first_word (flat_map (fun x => comma_toks sp ++ toks sp 1 x) l ++ [TRbrace]) = false).
    { apply (lexable_commas sp (toks sp 1)).
      - apply fold_and in W3. clear -H W3. induction H; [constructor|].
        inversion W3; subst. constructor; auto.
      - apply lexable_one; exact I.
      - reflexivity. }
    destruct C as [C1 C2]. apply lexable_app; [auto|exact C1|rewrite C2; apply andb_false_r].
  - apply lexable_cons; [exact I|reflexivity|]. apply lexable_cons; [exact I|reflexivity|].
    apply lexable_cons; [exact W|reflexivity|]. apply lexable_one. exact I.
  - apply lexable_paren. auto.
  - destruct W as [W1 W2]. apply lexable_paren.
    apply lexable_app; [auto| |apply andb_false_r].
    apply lexable_cons; [exact I|reflexivity|auto].
  - destruct W as [W1 W2]. apply lexable_paren.
    destruct (sp_toks_ok true TPower I eq_refl) as (S1 & S2 & S3 & S4).
    apply lexable_mid; auto.
Qed.

(** ** What may follow *)
Definition op_end (t : token) : bool :=
  match t with
  | TPlus | TMinus | TRparen | TRbrace | TRcurl | TRassoc | TArrow | TComma => true
  | _ => false
  end.

(** After a term. *)
Definition ends2 (ts : list token) : bool :=
  match ts with
  | [] => true
  | TWhitespace :: t :: _ => op_end t
  | t :: _ => op_end t
  end.

(** After a factor. *)
Definition ends3 (ts : list token) : bool :=
  match ts with
  | TMultiply :: _ | TDivide :: _ | TWhitespace :: (TExpr _ | TLparen | TCommand) :: _ => true
  | _ => ends2 ts
  end.

(** After the base of a power. *)
Definition ends4 (ts : list token) : bool :=
  match ts with TPower :: _ | TWhitespace :: TPower :: _ => true | _ => ends3 ts end.

Lemma ends2_3 ts : ends2 ts = true -> ends3 ts = true.
Proof. destruct ts as [|[] [|[]]]; cbn; congruence. Qed.
Lemma ends3_4 ts : ends3 ts = true -> ends4 ts = true.
Proof. destruct ts as [|[] [|[]]]; cbn; congruence. Qed.

(** ** Readings that settle *)
Lemma settles_now {X} (f : nat -> res X) r : (forall n, f (S n) = r) -> settles f r.
Proof. intros H. exists 1. intros [|m] L; [lia|apply H]. Qed.

Lemma settles_step {X} (f g : nat -> res X) r :
  (forall n, f (S n) = g n) -> settles g r -> settles f r.
Proof.
  intros E [N H]. exists (S N). intros [|m] L; [lia|]. rewrite E. apply H. lia.
Qed.

Lemma settles_bind {X Y} (f : nat -> res X) (k : X -> nat -> res Y) x r :
  settles f (Ok x) -> settles (k x) r -> settles (fun n => do y <- f n; k y n) r.
Proof.
  intros [N H] [M G]. exists (N + M). intros m L.
  rewrite H by lia. cbn [rbind]. apply G. lia.
Qed.

Lemma settles_ext {X} (f g : nat -> res X) r :
  (forall n, f n = g n) -> settles g r -> settles f r.
Proof. intros E [N H]. exists N. intros m L. rewrite E. auto. Qed.

Lemma settles_const {X} (r : res X) : settles (fun _ => r) r.
Proof. exists 0. auto. Qed.

(** ** The parts of factor *)
Definition fhead (fuel : nat) (t : token) (s : stream) : res (node * stream) :=
  match t with
  | TString v => do s <- advance s; Ok (NStr v, s)
  | TLparen =>
      do s <- advance s; do (a, s) <- p_expr fuel false s; do t2 <- cur s;
      match t2 with
      | TRparen => do s <- advance s; Ok (a, s)
      | _ => Err EException
      end
  | TLcurl =>
      do s <- advance s; do (a, s) <- p_list fuel [] s; do t2 <- cur s;
      match t2 with
      | TRcurl => do s <- advance s; Ok (a, s)
      | _ => Err EException
      end
  | TLassoc =>
      do s <- advance s; do (a, s) <- p_assoc fuel [] [] s; do t2 <- cur s;
      match t2 with
      | TRassoc => do s <- advance s; Ok (a, s)
      | _ => Err EException
      end
  | TCommand =>
      do s <- advance s;
      do t2 <- cur s;
      match t2 with
      | TLbrace =>
          match tok 2 s with
          | None => Err EAttributeError
          | Some TRbrace =>
              do s <- advance s;
              let v := token_value (tok 0 s) in
              do s <- advance s; do s <- advance s; Ok (NGreek v, s)
          | Some _ => Ok (NNone, s)
          end
      | _ => Ok (NNone, s)
      end
  | TExpr v =>
      match tok 1 s with
      | Some TLbrace => do s <- advance s; p_func fuel v [] s
      | _ => do s <- advance s; Ok (NExpr v, s)
      end
  | TPlus =>
      do s <- advance s; do (a, s) <- p_factor fuel s; Ok (NPlus a, s)
  | TMinus =>
      do s <- advance s; do (a, s) <- p_factor fuel s; Ok (NMinus a, s)
  | _ => Ok (NNone, s)
  end.

Definition pow1 (fuel : nat) (r : node) (s : stream) : res (node * stream) :=
  match tok 0 s with
  | Some TPower =>
      do s <- advance s; do (b, s) <- p_factor fuel s; Ok (NPow r b, s)
  | _ => Ok (r, s)
  end.

Definition pow2 (fuel : nat) (r : node) (s : stream) : res (node * stream) :=
  match tok 0 s, tok 1 s with
  | Some TWhitespace, Some TPower =>
      do s <- advance s; do s <- advance s;
      do (b, s) <- p_factor fuel s; Ok (NPow r b, s)
  | _, _ => Ok (r, s)
  end.

Lemma p_factor_eq n s :
  p_factor (S n) s =
  (do s <- skip_white s; do t <- cur s; do (r, s) <- fhead n t s;
   do (r, s) <- pow1 n r s; pow2 n r s).
Proof. reflexivity. Qed.

Lemma pow2_end n r ts : ends3 ts = true -> pow2 n r (map Ok ts) = Ok (r, map Ok ts).
Proof.
  intros E. unfold pow2. rewrite !tok_nth.
  destruct ts as [|[] [|[] ts]]; cbn in E |- *; try reflexivity; discriminate.
Qed.

Lemma pow1_end n r ts : ends3 ts = true -> pow1 n r (map Ok ts) = Ok (r, map Ok ts).
Proof.
  intros E. unfold pow1. rewrite tok_nth.
  destruct ts as [|[] ts]; cbn in E |- *; try reflexivity; discriminate.
Qed.

(** A factor with its head read to the rest [ts']. *)
Lemma factor_by_head t ts ts' a r :
  t <> TWhitespace ->
  settles (fun n => fhead n t (map Ok (t :: ts))) (Ok (a, map Ok ts')) ->
  settles (fun n => do (r, s) <- pow1 n a (map Ok ts'); pow2 n r s) r ->
  settles (fun n => p_factor n (map Ok (t :: ts))) r.
Proof.
  intros W H K. eapply settles_step; [intros n; apply p_factor_eq|].
  assert (S : skip_white (map Ok (t :: ts)) = Ok (map Ok (t :: ts)))
    by (apply skip_none; destruct t; try exact I; congruence).
  rewrite S. cbn [rbind]. rewrite cur_ok. cbn [rbind].
  apply (settles_bind (fun n => fhead n t (map Ok (t :: ts)))
           (fun (p : node * stream) n => let (r, s) := p in do (r, s) <- pow1 n r s; pow2 n r s) (a, map Ok ts'));
  assumption.
Qed.

Lemma factor_plain t ts ts' a :
  t <> TWhitespace -> ends3 ts' = true ->
  settles (fun n => fhead n t (map Ok (t :: ts))) (Ok (a, map Ok ts')) ->
  settles (fun n => p_factor n (map Ok (t :: ts))) (Ok (a, map Ok ts')).
Proof.
  intros W E H. eapply factor_by_head; [exact W|exact H|].
  apply settles_now. intros n. rewrite pow1_end by exact E. cbn [rbind].
  apply pow2_end, E.
Qed.

(** The first token of a writing. *)
Definition start_tok (t : token) : Prop :=
  match t with TExpr _ | TMinus | TLparen | TCommand => True | _ => False end.

Lemma toks_start sp e : forall lvl, exists t ts, toks sp lvl e = t :: ts /\ start_tok t.
Proof.
  induction e using exp_rect2; intros lvl; cbn [toks];
    try (eexists; eexists; split; [reflexivity|exact I]);
    try match goal with |- context [paren_toks ?b _] => destruct b end; cbn [paren_toks];
    try (eexists; eexists; split; [reflexivity|exact I]);
    match goal with
    | IH : forall lvl, exists t ts, toks sp lvl ?a = _ /\ _
      |- context [toks sp ?n ?a ++ _] =>
        destruct (IH n) as (t & ts & -> & T)
    end;
    (eexists; eexists; split; [reflexivity|exact T]).
Qed.

Lemma start_not_ws t ts : start_tok t -> not_ws (t :: ts).
Proof. destruct t; cbn; tauto. Qed.

(** ** The four statements about an expression *)
Definition reads_expr sp (e : exp) : Prop :=
  forall rest assoc r, ends2 rest = true ->
  settles (fun n => p_expr_loop n assoc (tree e) (map Ok (unws rest))) r ->
  settles (fun n => p_expr n assoc (map Ok (toks sp 1 e ++ rest))) r.

Definition reads_term sp (e : exp) : Prop :=
  forall rest r, ends3 rest = true ->
  settles (fun n => p_term_loop n (tree e) (map Ok rest)) r ->
  settles (fun n => p_term n (map Ok (toks sp 2 e ++ rest))) r.

Definition reads_factor sp (e : exp) : Prop :=
  forall rest, ends3 rest = true ->
  settles (fun n => p_factor n (map Ok (toks sp 3 e ++ rest)))
          (Ok (tree e, map Ok rest)).

Definition reads_head sp (e : exp) : Prop :=
  forall rest, ends4 rest = true ->
  exists t ts, toks sp 4 e ++ rest = t :: ts /\ t <> TWhitespace /\
  settles (fun n => fhead n t (map Ok (t :: ts))) (Ok (tree e, map Ok rest)).

Lemma term_loop_end rest a : ends2 rest = true ->
  settles (fun n => p_term_loop n a (map Ok rest)) (Ok (a, map Ok (unws rest))).
Proof.
  intros E. destruct rest as [|t rest].
  - apply settles_now. reflexivity.
  - destruct t; try discriminate E; try (apply settles_now; reflexivity).
    destruct rest as [|u rest]; [discriminate|]. cbn in E.
    eapply settles_step with (g := fun n => p_term_loop n a (map Ok (u :: rest))).
    + intros n. cbn [p_term_loop]. rewrite !tok_nth. cbn [nth_error].
      destruct u; try discriminate E; cbn [starts_factor];
        rewrite advance_ok; reflexivity.
    + apply settles_now. intros n. destruct u; try discriminate E; reflexivity.
Qed.

Lemma reads_term_done sp e rest : reads_term sp e -> ends2 rest = true ->
  settles (fun n => p_term n (map Ok (toks sp 2 e ++ rest)))
          (Ok (tree e, map Ok (unws rest))).
Proof.
  intros R E. apply R; [apply ends2_3, E|]. apply term_loop_end, E.
Qed.

Lemma term_of_factor sp e :
  toks sp 2 e = toks sp 3 e -> reads_factor sp e -> reads_term sp e.
Proof.
  intros E F rest r R K. rewrite E.
  destruct (toks_start sp e 3) as (t & ts & Et & St). 
  eapply settles_step with
    (g := fun n => do (a, s) <- p_factor n (map Ok (toks sp 3 e ++ rest));
                   p_term_loop n a s).
  - intros n. cbn [p_term].
    rewrite Et. cbn [app]. rewrite skip_none by (apply start_not_ws, St). reflexivity.
  - apply (settles_bind _ (fun (p : node * stream) n => let (a, s) := p in p_term_loop n a s)
             (tree e, map Ok rest)); [apply F, R|exact K].
Qed.

Lemma expr_of_term sp e :
  toks sp 1 e = toks sp 2 e -> reads_term sp e -> reads_expr sp e.
Proof.
  intros E T rest assoc r R K. rewrite E.
  eapply settles_step with
    (g := fun n => do (a, s) <- p_term n (map Ok (toks sp 2 e ++ rest));
                   p_expr_loop n assoc a s); [reflexivity|].
  apply (settles_bind _ (fun (p : node * stream) n => let (a, s) := p in p_expr_loop n assoc a s)
           (tree e, map Ok (unws rest))); [apply reads_term_done; assumption|exact K].
Qed.

Lemma factor_of_head sp e :
  toks sp 3 e = toks sp 4 e -> reads_head sp e -> reads_factor sp e.
Proof.
  intros E H rest R. rewrite E.
  destruct (H rest (ends3_4 _ R)) as (t & ts & -> & W & K).
  apply factor_plain; assumption.
Qed.

Lemma expr_loop_end assoc rest a :
  match rest with
  | [] => True
  | t :: _ => match t with
              | TRparen | TRbrace | TRcurl | TRassoc | TComma => True
              | TArrow => assoc = true
              | _ => False
              end
  end ->
  settles (fun n => p_expr_loop n assoc a (map Ok rest)) (Ok (a, map Ok rest)).
Proof.
  intros E. apply settles_now. intros n.
  destruct rest as [|[] rest]; try contradiction; try reflexivity.
  rewrite E. reflexivity.
Qed.

Lemma read_in_parens sp e : reads_expr sp e ->
  forall rest, exists t ts, paren_toks true (toks sp 1 e) ++ rest = t :: ts /\ t <> TWhitespace /\
  settles (fun n => fhead n t (map Ok (t :: ts))) (Ok (tree e, map Ok rest)).
Proof.
  intros X rest. cbn [paren_toks].
  exists TLparen, (toks sp 1 e ++ TRparen :: rest). split.
  { cbn [app]. rewrite <- app_assoc. reflexivity. }
  split; [discriminate|].
  eapply settles_ext.
  { intros n. cbn [fhead]. rewrite advance_ok. cbn [rbind tl]. reflexivity. }
  apply (settles_bind _
           (fun (p : node * stream) n => let (a, s) := p in
              do t2 <- cur s;
              match t2 with
              | TRparen => do s <- advance s; Ok (a, s)
              | _ => Err EException
              end) (tree e, map Ok (TRparen :: rest))).
  - apply X; [reflexivity|]. apply expr_loop_end. exact I.
  - apply settles_now. intros n. rewrite cur_ok. cbn [rbind].
    rewrite advance_ok. reflexivity.
Qed.

Lemma head_of_expr sp e :
  toks sp 4 e = paren_toks true (toks sp 1 e) -> reads_expr sp e -> reads_head sp e.
Proof. intros E X rest R. rewrite E. apply read_in_parens, X. Qed.

Lemma head_paren sp e : reads_expr sp e -> reads_head sp (EParen e).
Proof. intros X rest R. cbn [toks tree]. apply read_in_parens, X. Qed.

(** ** The induction *)
Definition reads sp e : Prop :=
  reads_expr sp e /\ reads_term sp e /\ reads_factor sp e /\ reads_head sp e.

(** White space in front of a writing. *)
Lemma term_after_ws sp e rest : reads_term sp e -> ends2 rest = true ->
  settles (fun n => p_term n (map Ok (TWhitespace :: toks sp 2 e ++ rest)))
          (Ok (tree e, map Ok (unws rest))).
Proof.
  intros R E. pose proof (reads_term_done sp e rest R E) as H.
  destruct (toks_start sp e 2) as (t & ts & Et & St).
  destruct H as [N H]. exists (S N). intros [|m] L; [lia|].
  rewrite <- (H (S m)) by lia. cbn [p_term]. rewrite Et. cbn [app].
  rewrite skip_ws by (apply start_not_ws, St).
  rewrite skip_none by (apply start_not_ws, St). reflexivity.
Qed.

(** One more summand. *)
Lemma expr_add sp (neg : bool) a b rest assoc r :
  reads_expr sp a -> reads_term sp b -> ends2 rest = true ->
  settles (fun n => p_expr_loop n assoc
                      (if neg then NSub (tree a) (tree b) else NAdd (tree a) (tree b))
                      (map Ok (unws rest))) r ->
  settles (fun n => p_expr n assoc
     (map Ok ((toks sp 1 a ++ sp_toks sp (if neg then TMinus else TPlus) ++ toks sp 2 b)
              ++ rest))) r.
Proof.
  intros A B E K. rewrite <- !app_assoc.
  apply A.
  { destruct sp, neg; reflexivity. }
  set (op := if neg then TMinus else TPlus).
  assert (U : unws (sp_toks sp op ++ toks sp 2 b ++ rest)
              = op :: (if sp then [TWhitespace] else []) ++ toks sp 2 b ++ rest).
  { unfold op. destruct sp, neg; reflexivity. }
  rewrite U.
  eapply settles_step with
    (g := fun n => do (c, s) <- p_term n (map Ok ((if sp then [TWhitespace] else [])
                                                    ++ toks sp 2 b ++ rest));
                   p_expr_loop n assoc
                     (if neg then NSub (tree a) c else NAdd (tree a) c) s).
  { intros n. cbn [p_expr_loop]. rewrite tok_nth. unfold op.
    destruct neg; cbn [nth_error]; rewrite advance_ok; reflexivity. }
  apply (settles_bind _
           (fun (p : node * stream) n => let (c, s) := p in p_expr_loop n assoc
                     (if neg then NSub (tree a) c else NAdd (tree a) c) s)
           (tree b, map Ok (unws rest))).
  - destruct sp; cbn [app]; [apply term_after_ws|apply reads_term_done]; assumption.
  - exact K.
Qed.

Lemma term_mul sp (dv : bool) a b rest r :
  reads_term sp a -> reads_factor sp b -> ends3 rest = true ->
  settles (fun n => p_term_loop n
                      (if dv then NDiv (tree a) (tree b) else NMul (tree a) (tree b))
                      (map Ok rest)) r ->
  settles (fun n => p_term n
     (map Ok ((toks sp 2 a ++ (if dv then TDivide else TMultiply) :: toks sp 3 b)
              ++ rest))) r.
Proof.
  intros A B E K. rewrite <- app_assoc. cbn [app].
  apply A.
  { destruct dv; reflexivity. }
  eapply settles_step with
    (g := fun n => do (c, s) <- p_factor n (map Ok (toks sp 3 b ++ rest));
                   p_term_loop n
                     (if dv then NDiv (tree a) c else NMul (tree a) c) s).
  { intros n. cbn [p_term_loop]. rewrite tok_nth.
    destruct dv; cbn [nth_error]; rewrite advance_ok; reflexivity. }
  apply (settles_bind _
           (fun (p : node * stream) n => let (c, s) := p in p_term_loop n
                     (if dv then NDiv (tree a) c else NMul (tree a) c) s)
           (tree b, map Ok rest)); [apply B, E|exact K].
Qed.

Lemma factor_neg sp a : reads_factor sp a -> reads_factor sp (ENeg a).
Proof.
  intros A rest E. cbn [toks]. change (3 <? 3) with false. cbn [paren_toks app].
  apply factor_plain; [discriminate|exact E|].
  eapply settles_ext.
  { intros n. cbn [fhead]. rewrite advance_ok. cbn [rbind tl]. reflexivity. }
  apply (settles_bind _ (fun (p : node * stream) n => let (c, s) := p in Ok (NMinus c, s))
           (tree a, map Ok rest)); [apply A, E|apply settles_const].
Qed.

Lemma factor_pow sp a b : reads_head sp a -> reads_factor sp b ->
  reads_factor sp (EPow a b).
Proof.
  intros A B rest E. cbn [toks]. change (3 <? 3) with false. cbn [paren_toks].
  rewrite <- app_assoc. cbn [app].
  destruct (A (TPower :: toks sp 3 b ++ rest) eq_refl) as (t & ts & -> & W & K).
  eapply factor_by_head; [exact W|exact K|].
  eapply settles_ext.
  { intros n. unfold pow1. rewrite tok_nth. cbn [nth_error]. rewrite advance_ok.
    cbn [rbind tl]. reflexivity. }
  apply (settles_bind
           (fun n => do (b0, s) <- p_factor n (map Ok (toks sp 3 b ++ rest));
                     Ok (NPow (tree a) b0, s))
           (fun (p : node * stream) n => let (r, s) := p in pow2 n r s)
           (NPow (tree a) (tree b), map Ok rest)).
  - apply (settles_bind _ (fun (p : node * stream) n => let (c, s) := p in Ok (NPow (tree a) c, s))
           (tree b, map Ok rest)); [apply B, E|apply settles_const].
  - apply settles_now. intros n. apply pow2_end, E.
Qed.

Lemma factor_after_ws ts r : not_ws ts ->
  settles (fun n => p_factor n (map Ok ts)) r ->
  settles (fun n => p_factor n (map Ok (TWhitespace :: ts))) r.
Proof.
  intros W [N H]. exists (S N). intros [|m] L; try lia.
  rewrite <- (H (S m)) by lia. rewrite !p_factor_eq.
  rewrite skip_ws, skip_none by exact W. reflexivity.
Qed.

Lemma factor_pow_spaced sp a b : reads_head sp a -> reads_factor sp b ->
  reads_factor sp (EPowS a b).
Proof.
  intros A B rest E. cbn [toks]. change (3 <? 3) with false. cbn [paren_toks sp_toks].
  rewrite <- !app_assoc. cbn [app].
  destruct (A (TWhitespace :: TPower :: TWhitespace :: toks sp 3 b ++ rest) eq_refl)
    as (t & ts & -> & W & K).
  eapply factor_by_head; [exact W|exact K|].
  eapply settles_ext.
  { intros n. unfold pow1. rewrite tok_nth. cbn [nth_error rbind]. unfold pow2.
    rewrite !tok_nth. cbn [nth_error]. rewrite advance_ok. cbn [rbind tl].
    rewrite advance_ok. cbn [rbind tl]. reflexivity. }
  apply (settles_bind _ (fun (p : node * stream) n => let (c, s) := p in Ok (NPow (tree a) c, s))
           (tree b, map Ok rest)); [|apply settles_const].
  apply factor_after_ws; [|apply B, E].
  destruct (toks_start sp b 3) as (u & us & -> & St). apply start_not_ws, St.
Qed.

(** White space as a product. *)
Definition by_start (t : token) : Prop :=
  match t with TExpr _ | TLparen | TCommand => True | _ => False end.

Lemma toks_start4 sp e : exists t ts, toks sp 4 e = t :: ts /\ by_start t.
Proof.
  destruct e; cbn [toks]; try match goal with |- context [paren_toks ?b _] => change b with true end;
    cbn [paren_toks]; (eexists; eexists; split; [reflexivity|exact I]).
Qed.

Lemma toks_start_by sp e : exists t ts, toks sp (by_lvl e) e = t :: ts /\ by_start t.
Proof.
  destruct e; cbn [by_lvl]; try apply toks_start4; cbn [toks];
    try match goal with |- context [paren_toks ?b _] =>
      let b' := eval compute in b in change b with b' end;
    cbn [paren_toks]; try (eexists; eexists; split; [reflexivity|exact I]);
    match goal with |- context [toks sp 4 ?a ++ _] =>
      destruct (toks_start4 sp a) as (t & ts & -> & T) end;
    (eexists; eexists; split; [reflexivity|exact T]).
Qed.

Lemma factor_by sp e rest : reads_factor sp e -> reads_head sp e -> ends3 rest = true ->
  settles (fun n => p_factor n (map Ok (toks sp (by_lvl e) e ++ rest))) (Ok (tree e, map Ok rest)).
Proof.
  intros F H E. unfold by_lvl. destruct e; try (apply F, E).
  destruct (H rest (ends3_4 _ E)) as (t & ts & -> & W & K). apply factor_plain; assumption.
Qed.

Lemma term_by sp a b : reads_term sp a -> reads_factor sp b -> reads_head sp b ->
  reads_term sp (EBy a b).
Proof.
  intros A F H rest r E K. cbn [toks]. change (2 <? 2) with false. cbn [paren_toks].
  rewrite <- app_assoc. cbn [app]. pose proof (factor_by sp b rest F H E) as B.
  destruct (toks_start_by sp b) as (t & ts & Et & St).
  apply A.
  { rewrite Et. destruct t; try contradiction; reflexivity. }
  eapply settles_step with
    (g := fun n => do (c, s) <- p_factor n (map Ok (toks sp (by_lvl b) b ++ rest));
                   p_term_loop n (NMul (tree a) c) s).
  { intros n. cbn [p_term_loop]. rewrite !tok_nth. rewrite Et. cbn [app nth_error].
    destruct t; try contradiction; cbn [starts_factor]; rewrite advance_ok; reflexivity. }
  apply (settles_bind _
           (fun (p : node * stream) n => let (c, s) := p in p_term_loop n (NMul (tree a) c) s)
           (tree b, map Ok rest)); [exact B|exact K].
Qed.

(** White space in front of an expression. *)
Lemma expr_after_ws assoc ts r : not_ws ts ->
  settles (fun n => p_expr n assoc (map Ok ts)) r ->
  settles (fun n => p_expr n assoc (map Ok (TWhitespace :: ts))) r.
Proof.
  intros W [N H]. exists (S (S N)). intros [|[|m]] L; try lia.
  rewrite <- (H (S (S m))) by lia. cbn [p_expr p_term].
  rewrite skip_ws, skip_none by exact W. reflexivity.
Qed.

Lemma toks_not_ws sp lvl e rest : not_ws (toks sp lvl e ++ rest).
Proof.
  destruct (toks_start sp e lvl) as (t & ts & -> & St). cbn [app].
  apply start_not_ws, St.
Qed.

(** An expression as an argument. *)
Lemma expr_in_call sp e rest :
  reads_expr sp e ->
  match rest with TComma :: _ | TRbrace :: _ => True | _ => False end ->
  settles (fun n => p_expr n false (map Ok (toks sp 1 e ++ rest)))
          (Ok (tree e, map Ok rest)).
Proof.
  intros X E. apply X.
  - destruct rest as [|[]]; try contradiction; reflexivity.
  - destruct rest as [|[]]; try contradiction; apply expr_loop_end; exact I.
Qed.

Lemma args_read sp l : Forall (reads_expr sp) l -> forall arg rest,
  settles (fun n => p_args n arg
     (map Ok (flat_map (fun x => comma_toks sp ++ toks sp 1 x) l ++ TRbrace :: rest)))
   (Ok (match l with
        | [] => arg
        | _ :: _ => inr (match arg with inl a => [a] | inr k => k end ++ map tree l)
        end, map Ok (TRbrace :: rest))).
Proof.
  induction 1 as [|x l X L IH]; intros arg rest.
  - apply settles_now. reflexivity.
  - cbn [flat_map]. rewrite <- app_assoc.
    set (more := flat_map (fun x => comma_toks sp ++ toks sp 1 x) l ++ TRbrace :: rest).
    eapply settles_step with
      (g := fun n => do (b, s) <- p_expr n false
                 (map Ok ((if sp then [TWhitespace] else []) ++ toks sp 1 x ++ more));
               p_args n (inr (match arg with inl a => [a; b] | inr l => l ++ [b] end)) s).
    { intros n. cbn [p_args]. rewrite <- app_assoc.
      destruct sp; cbn [comma_toks app]; rewrite cur_ok; cbn [rbind];
        rewrite advance_ok; reflexivity. }
    apply (settles_bind _
      (fun (p : node * stream) n => let (b, s) := p in
         p_args n (inr (match arg with inl a => [a; b] | inr l => l ++ [b] end)) s)
      (tree x, map Ok more)).
    + assert (H : settles (fun n => p_expr n false (map Ok (toks sp 1 x ++ more)))
                    (Ok (tree x, map Ok more))).
      { apply expr_in_call; [exact X|]. unfold more. destruct l; [exact I|].
        destruct sp; exact I. }
      destruct sp; cbn [app]; [|exact H]. apply expr_after_ws; [apply toks_not_ws|exact H].
    + unfold more.
      specialize (IH (inr (match arg with inl a => [a; tree x] | inr k => k ++ [tree x] end)) rest).
      destruct l as [|y l]; (eapply eq_ind; [exact IH|]).
      * f_equal. f_equal. f_equal. destruct arg; cbn; try reflexivity.
      * f_equal. f_equal. f_equal. destruct arg; cbn; rewrite <- ?app_assoc; reflexivity.
Qed.

Lemma head_call sp f a l : reads_expr sp a -> Forall (reads_expr sp) l ->
  reads_head sp (ECall f a l).
Proof.
  intros A L rest E.
  set (more := flat_map (fun x => comma_toks sp ++ toks sp 1 x) l ++ TRbrace :: rest).
  exists (TExpr f), (TLbrace :: toks sp 1 a ++ more). split; [|split; [discriminate|]].
  { cbn [toks app]. unfold more. rewrite <- !app_assoc. reflexivity. }
  eapply settles_ext.
  { intros n. cbn [fhead]. rewrite tok_nth. cbn [nth_error]. rewrite advance_ok.
    cbn [rbind tl]. reflexivity. }
  eapply settles_step with
    (g := fun n => do (b, s) <- p_expr n false (map Ok (toks sp 1 a ++ more));
                   do (arg, s) <- p_args n (inl b) s;
                   do t <- cur s;
                   do s <- match t with TRbrace => advance s | _ => Ok s end;
                   p_func n f [arg] s).
  { intros n. cbn [p_func]. rewrite tok_nth. cbn [nth_error]. rewrite advance_ok.
    reflexivity. }
  apply (settles_bind _
    (fun (p : node * stream) n => let (b, s) := p in
       do (arg, s) <- p_args n (inl b) s;
       do t <- cur s;
       do s <- match t with TRbrace => advance s | _ => Ok s end;
       p_func n f [arg] s) (tree a, map Ok more)).
  { apply expr_in_call; [exact A|]. unfold more. destruct l; [exact I|]. destruct sp; exact I. }
  pose proof (args_read sp l L (inl (tree a)) rest) as H. fold more in H.
  eapply (settles_bind _
    (fun (p : (node + list node) * stream) n => let (arg, s) := p in
       do t <- cur s;
       do s <- match t with TRbrace => advance s | _ => Ok s end;
       p_func n f [arg] s)); [exact H|].
  apply settles_now. intros n. cbv beta iota. rewrite cur_ok. cbn [rbind].
  rewrite advance_ok. cbn [rbind tl p_func]. rewrite tok_nth.
  cbn [tree]. destruct rest as [|[] rest]; try discriminate E; cbn [nth_error]; destruct l; reflexivity.
Qed.

Lemma reads_all sp e : reads sp e.
Proof.
  assert (mk3 : forall e, toks sp 1 e = toks sp 3 e -> toks sp 2 e = toks sp 3 e ->
            reads_factor sp e -> reads_head sp e -> reads sp e).
  { intros e' E1 E2 F H. assert (T : reads_term sp e') by (apply term_of_factor; assumption).
    split; [apply expr_of_term; [congruence|exact T]|]. auto. }
  induction e using exp_rect2.
  - assert (H : reads_head sp (EWord v)).
    { intros rest E. exists (TExpr v), rest. split; [reflexivity|].
      split; [discriminate|]. apply settles_now. intros n. cbn [fhead].
      rewrite tok_nth. destruct rest as [|[] rest]; try discriminate E;
      cbn [nth_error]; rewrite advance_ok; reflexivity. }
    apply mk3; [reflexivity|reflexivity|apply factor_of_head; [reflexivity|exact H]|exact H].
  - destruct IHe1 as (A1 & _). destruct IHe2 as (_ & B2 & _).
    assert (X : reads_expr sp (EAdd e1 e2)).
    { intros rest assoc r E K. cbn [toks]. change (1 <? 1) with false. cbn [paren_toks].
      apply (expr_add sp false e1 e2); assumption. }
    assert (H : reads_head sp (EAdd e1 e2)) by (apply head_of_expr; [reflexivity|exact X]).
    assert (F : reads_factor sp (EAdd e1 e2)) by (apply factor_of_head; [reflexivity|exact H]).
    assert (T : reads_term sp (EAdd e1 e2)) by (apply term_of_factor; [reflexivity|exact F]).
    split; [exact X|]. auto.
  - destruct IHe1 as (A1 & _). destruct IHe2 as (_ & B2 & _).
    assert (X : reads_expr sp (ESub e1 e2)).
    { intros rest assoc r E K. cbn [toks]. change (1 <? 1) with false. cbn [paren_toks].
      apply (expr_add sp true e1 e2); assumption. }
    assert (H : reads_head sp (ESub e1 e2)) by (apply head_of_expr; [reflexivity|exact X]).
    assert (F : reads_factor sp (ESub e1 e2)) by (apply factor_of_head; [reflexivity|exact H]).
    assert (T : reads_term sp (ESub e1 e2)) by (apply term_of_factor; [reflexivity|exact F]).
    split; [exact X|]. auto.
  - destruct IHe1 as (_ & A2 & _). destruct IHe2 as (_ & _ & B3 & _).
    assert (T : reads_term sp (EMul e1 e2)).
    { intros rest r E K. cbn [toks]. change (2 <? 2) with false. cbn [paren_toks].
      apply (term_mul sp false e1 e2); assumption. }
    assert (X : reads_expr sp (EMul e1 e2)) by (apply expr_of_term; [reflexivity|exact T]).
    assert (H : reads_head sp (EMul e1 e2)) by (apply head_of_expr; [reflexivity|exact X]).
    assert (F : reads_factor sp (EMul e1 e2)) by (apply factor_of_head; [reflexivity|exact H]).
    split; [exact X|]. auto.
  - destruct IHe1 as (_ & A2 & _). destruct IHe2 as (_ & _ & B3 & _).
    assert (T : reads_term sp (EDiv e1 e2)).
    { intros rest r E K. cbn [toks]. change (2 <? 2) with false. cbn [paren_toks].
      apply (term_mul sp true e1 e2); assumption. }
    assert (X : reads_expr sp (EDiv e1 e2)) by (apply expr_of_term; [reflexivity|exact T]).
    assert (H : reads_head sp (EDiv e1 e2)) by (apply head_of_expr; [reflexivity|exact X]).
    assert (F : reads_factor sp (EDiv e1 e2)) by (apply factor_of_head; [reflexivity|exact H]).
    split; [exact X|]. auto.
  - destruct IHe1 as (_ & _ & _ & A4). destruct IHe2 as (_ & _ & B3 & _).
    assert (F : reads_factor sp (EPow e1 e2)) by (apply factor_pow; assumption).
    assert (T : reads_term sp (EPow e1 e2)) by (apply term_of_factor; [reflexivity|exact F]).
    assert (X : reads_expr sp (EPow e1 e2)) by (apply expr_of_term; [reflexivity|exact T]).
    assert (H : reads_head sp (EPow e1 e2)) by (apply head_of_expr; [reflexivity|exact X]).
    split; [exact X|]. auto.
  - destruct IHe as (_ & _ & A3 & _).
    assert (F : reads_factor sp (ENeg e)) by (apply factor_neg; assumption).
    assert (T : reads_term sp (ENeg e)) by (apply term_of_factor; [reflexivity|exact F]).
    assert (X : reads_expr sp (ENeg e)) by (apply expr_of_term; [reflexivity|exact T]).
    assert (H : reads_head sp (ENeg e)) by (apply head_of_expr; [reflexivity|exact X]).
    split; [exact X|]. auto.
  - destruct IHe as (A1 & _).
    assert (L : Forall (reads_expr sp) l).
    { induction H as [|x l [X _] L IH]; constructor; assumption. }
    pose proof (head_call sp f e l A1 L) as K.
    apply mk3; [reflexivity|reflexivity|apply factor_of_head; [reflexivity|exact K]|exact K].
  - assert (H : reads_head sp (EGreek v)).
    { intros rest E. exists TCommand, (TLbrace :: TExpr v :: TRbrace :: rest). split; [reflexivity|].
      split; [discriminate|]. apply settles_now. intros n. cbn [fhead].
      rewrite advance_ok. cbn [rbind tl]. rewrite cur_ok. cbn [rbind]. rewrite tok_nth.
      cbn [nth_error]. rewrite advance_ok. cbn [rbind tl]. rewrite tok_nth. cbn [nth_error token_value].
      rewrite advance_ok. cbn [rbind tl]. rewrite advance_ok. reflexivity. }
    apply mk3; [reflexivity|reflexivity|apply factor_of_head; [reflexivity|exact H]|exact H].
  - destruct IHe as (X & _).
    assert (H : reads_head sp (EParen e)) by (apply head_paren, X).
    apply mk3; [reflexivity|reflexivity|apply factor_of_head; [reflexivity|exact H]|exact H].
  - destruct IHe1 as (_ & A2 & _). destruct IHe2 as (_ & _ & B3 & B4).
    assert (T : reads_term sp (EBy e1 e2)) by (apply term_by; assumption).
    assert (X : reads_expr sp (EBy e1 e2)) by (apply expr_of_term; [reflexivity|exact T]).
    assert (H : reads_head sp (EBy e1 e2)) by (apply head_of_expr; [reflexivity|exact X]).
    assert (F : reads_factor sp (EBy e1 e2)) by (apply factor_of_head; [reflexivity|exact H]).
    split; [exact X|]. auto.
  - destruct IHe1 as (_ & _ & _ & A4). destruct IHe2 as (_ & _ & B3 & _).
    assert (F : reads_factor sp (EPowS e1 e2)) by (apply factor_pow_spaced; assumption).
    assert (T : reads_term sp (EPowS e1 e2)) by (apply term_of_factor; [reflexivity|exact F]).
    assert (X : reads_expr sp (EPowS e1 e2)) by (apply expr_of_term; [reflexivity|exact T]).
    assert (H : reads_head sp (EPowS e1 e2)) by (apply head_of_expr; [reflexivity|exact X]).
    split; [exact X|]. auto.
Qed.

Lemma start_ok ts : start_parser (map Ok ts) = Ok (map Ok ts).
Proof. unfold start_parser. rewrite !nth_map, !raised_ok. reflexivity. Qed.

Theorem parse_exp sp e : words_ok e ->
  settles (fun n => parse n (lex (show sp 1 e))) (Ok (tree e)).
Proof.
  intros W. rewrite <- show_toks_exp. rewrite lex_shown by (apply lexable_exp, W).
  destruct (reads_all sp e) as (X & _).
  assert (H : settles (fun n => p_expr n false (map Ok (toks sp 1 e ++ [])))
                (Ok (tree e, map Ok []))).
  { apply X; [reflexivity|]. apply expr_loop_end. exact I. }
  rewrite app_nil_r in H.
  destruct (toks_start sp e 1) as (t & ts & E & _).
  eapply settles_ext.
  { intros n. unfold parse. rewrite start_ok. cbn [rbind]. rewrite E. cbn [map]. reflexivity. }
  rewrite E in H.
  apply (settles_bind _
    (fun (p : node * stream) (n : nat) => let (r, s) := p in
       match s with [] => Ok r | _ :: _ => Err EException end) (tree e, [])); [exact H|].
  apply settles_const.
Qed.

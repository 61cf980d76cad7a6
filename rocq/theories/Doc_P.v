(** The parser reads back documents, and parse_str leaves a tidy text as it is. *)
From Verif Require Import Base LexM ParseM InterpM SpecParse Lex_P Parse_P.
From Coq Require Import Ascii.
Import List.

Fixpoint doc_rect2 (P : doc -> Prop)
  (H1 : forall sp e, P (DExp sp e)) (H2 : forall s, P (DStr s))
  (H3 : forall sp spa a spb b, P (DRule sp spa a spb b))
  (H4 : forall sp l, Forall P l -> P (DList sp l))
  (H5 : forall sp l, Forall (fun x => P (fst x) /\ P (snd x)) l -> P (DAssoc sp l))
  (H6 : forall d, P d -> P (DMark d))
  (d : doc) : P d :=
  let R := doc_rect2 P H1 H2 H3 H4 H5 H6 in
  match d with
  | DExp sp e => H1 sp e
  | DStr s => H2 s
  | DRule sp spa a spb b => H3 sp spa a spb b
  | DMark d => H6 d (R d)
  | DList sp l =>
      H4 sp l ((fix go l : Forall P l :=
               match l with
               | [] => Forall_nil P
               | x :: l' => Forall_cons x (R x) (go l')
               end) l)
  | DAssoc sp l =>
      H5 sp l ((fix go l : Forall (fun x => P (fst x) /\ P (snd x)) l :=
               match l with
               | [] => Forall_nil _
               | x :: l' => Forall_cons x (conj (R (fst x)) (R (snd x))) (go l')
               end) l)
  end.

Definition sep_toks (sep : list token) (l : list (list token)) : list token :=
  match l with
  | [] => []
  | x :: l' => x ++ flat_map (fun y => sep ++ y) l'
  end.

Fixpoint doc_toks (d : doc) : list token :=
  match d with
  | DExp sp e => toks sp 1 e
  | DStr s => [TString (quoted s)]
  | DRule sp spa a spb b => toks spa 1 a ++ sp_toks sp TArrow ++ toks spb 1 b
  | DMark d => doc_toks d
  | DList sp l => TLcurl :: sep_toks (comma_toks sp) (map doc_toks l) ++ [TRcurl]
  | DAssoc sp l =>
      TLassoc
      :: sep_toks (comma_toks sp)
           (map (fun x => doc_toks (fst x) ++ sp_toks sp TArrow
                          ++ doc_toks (snd x)) l)
      ++ [TRassoc]
  end.

Lemma show_sep sp l :
  show_toks (sep_toks (comma_toks sp) l) = sep_by (comma sp) (map show_toks l).
Proof.
  destruct l as [|x l]; [reflexivity|]. cbn [sep_toks sep_by map].
  rewrite show_app. f_equal. induction l as [|y l IH]; [reflexivity|].
  cbn [flat_map map]. rewrite !show_app, IH, show_comma. reflexivity.
Qed.

Lemma show_toks_doc d : show_toks (doc_toks d) = show_doc false d.
Proof.
  induction d using doc_rect2; cbn [doc_toks show_doc].
  - apply show_toks_exp.
  - rewrite show_cons. cbn [show_tok]. cbn [show_toks flat_map]. apply app_nil_r.
  - rewrite !show_app, !show_toks_exp, show_sp. reflexivity.
  - rewrite show_cons, show_app, show_sep, map_map. cbn [show_tok].
    f_equal. f_equal. f_equal. apply map_ext_in. intros x I.
    rewrite Forall_forall in H. apply H, I.
  - rewrite show_cons, show_app, show_sep, map_map. cbn [show_tok].
    f_equal. f_equal. f_equal. apply map_ext_in. intros x I.
    rewrite Forall_forall in H. destruct (H x I) as [H1 H2].
    rewrite !show_app, H1, H2, show_sp. reflexivity.
  - rewrite app_nil_r. exact IHd.
Qed.

Lemma lexable_sep sp (l : list (list token)) z :
  Forall lexable l -> lexable z -> first_word z = false ->
  lexable (sep_toks (comma_toks sp) l ++ z).
Proof.
  intros H Z W. destruct l as [|x l]; [exact Z|]. inversion H; subst.
  cbn [sep_toks]. rewrite <- app_assoc.
  destruct (lexable_commas sp (fun x => x) l z) as [C1 C2]; try assumption.
  apply lexable_app; [assumption|exact C1|rewrite C2; apply andb_false_r].
Qed.

Lemma fold_and2 {A : Type} (P Q : A -> Prop) (l : list A) :
  fold_right (fun x R => P x /\ Q x /\ R) True l -> Forall (fun x => P x /\ Q x) l.
Proof. induction l; [constructor|]. cbn. intros (H1 & H2 & H3). constructor; auto. Qed.

Lemma lexable_doc d : forall rule, doc_ok rule d -> lexable (doc_toks d).
Proof.
  induction d using doc_rect2; intros rule W; cbn [doc_toks]; cbn [doc_ok] in W.
  - apply lexable_exp, W.
  - apply lexable_one. exists s. auto.
  - destruct W as (_ & A & B).
    destruct (sp_toks_ok sp TArrow I eq_refl) as (S1 & S2 & S3 & S4).
    apply lexable_mid; auto using lexable_exp.
  - apply lexable_cons; [exact I|reflexivity|].
    apply lexable_sep; [|apply lexable_one; exact I|reflexivity].
    apply fold_and in W. rewrite Forall_forall in *. intros ts J.
    apply in_map_iff in J as (x & <- & J). eapply H; eauto.
  - apply lexable_cons; [exact I|reflexivity|].
    apply lexable_sep; [|apply lexable_one; exact I|reflexivity].
    apply fold_and2 in W. rewrite Forall_forall in *. intros ts J.
    apply in_map_iff in J as (x & <- & J).
    destruct (H x J) as [H1 H2]. destruct (W x J) as [W1 W2].
    destruct (sp_toks_ok sp TArrow I eq_refl) as (S1 & S2 & S3 & S4).
    apply lexable_mid; eauto.
  - eauto.
Qed.

(** ** Reading *)
Definition doc_end (assoc : bool) (rest : list token) : Prop :=
  match rest with
  | [] | TRcurl :: _ | TRassoc :: _ | TComma :: _ => True
  | TArrow :: _ | TWhitespace :: TArrow :: _ => assoc = true
  | _ => False
  end.

Lemma doc_end_2 assoc rest : doc_end assoc rest -> ends2 rest = true.
Proof. destruct rest as [|[] [|[] rest]]; cbn; tauto. Qed.

Lemma doc_end_loop assoc rest a : doc_end assoc rest ->
  settles (fun n => p_expr_loop n assoc a (map Ok (unws rest)))
          (Ok (a, map Ok (unws rest))).
Proof.
  intros E. apply expr_loop_end.
  destruct rest as [|[] [|[] rest]]; cbn in *; tauto.
Qed.

Definition reads_doc (d : doc) : Prop :=
  forall rule assoc rest, doc_ok rule d -> (rule = true -> assoc = false) ->
  doc_end assoc rest ->
  settles (fun n => p_expr n assoc (map Ok (doc_toks d ++ rest)))
          (Ok (doc_tree d, map Ok (unws rest))).

Definition doc_start (t : token) : Prop :=
  match t with
  | TExpr _ | TMinus | TLparen | TCommand | TString _ | TLcurl | TLassoc => True
  | _ => False
  end.

Lemma doc_toks_start d : exists t ts, doc_toks d = t :: ts /\ doc_start t.
Proof.
  induction d using doc_rect2; cbn [doc_toks]; try (eexists; eexists; split; [reflexivity|exact I]).
  - destruct (toks_start sp e 1) as (t & ts & -> & T). exists t, ts. split; [reflexivity|].
    destruct t; cbn in *; tauto.
  - destruct (toks_start spa a 1) as (t & ts & -> & T). cbn [app]. eexists; eexists; split; [reflexivity|].
    destruct t; cbn in *; tauto.
  - exact IHd.
Qed.

Lemma doc_start_ws t ts : doc_start t -> not_ws (t :: ts).
Proof. destruct t; cbn; tauto. Qed.

(** A head that is a whole expression. *)
Lemma expr_by_head assoc t ts rest a :
  t <> TWhitespace -> doc_end assoc rest ->
  settles (fun n => fhead n t (map Ok (t :: ts))) (Ok (a, map Ok rest)) ->
  settles (fun n => p_expr n assoc (map Ok (t :: ts))) (Ok (a, map Ok (unws rest))).
Proof.
  intros W E H. pose proof (doc_end_2 _ _ E) as E2.
  eapply settles_step with
    (g := fun n => do (a, s) <- p_term n (map Ok (t :: ts));
                   p_expr_loop n assoc a s); [reflexivity|].
  apply (settles_bind _ (fun (p : node * stream) n => let (a, s) := p in p_expr_loop n assoc a s)
           (a, map Ok (unws rest))); [|apply doc_end_loop, E].
  eapply settles_step with
    (g := fun n => do (a, s) <- p_factor n (map Ok (t :: ts));
                   p_term_loop n a s).
  - intros n. cbn [p_term]. rewrite skip_none; [reflexivity|].
    destruct t; try exact I; congruence.
  - apply (settles_bind _ (fun (p : node * stream) n => let (a, s) := p in p_term_loop n a s)
             (a, map Ok rest)); [|apply term_loop_end, E2].
    apply factor_plain; [exact W|apply ends2_3, E2|exact H].
Qed.

Definition after_item (sp : bool) (rest : list token) : list token :=
  if sp then TWhitespace :: rest else rest.

Lemma comma_split sp x more :
  (comma_toks sp ++ x) ++ more = TComma :: after_item sp (x ++ more).
Proof. destruct sp; reflexivity. Qed.

Lemma skip_after_item sp ts : not_ws ts ->
  skip_white (map Ok (after_item sp ts)) = Ok (map Ok ts).
Proof. destruct sp; [apply skip_ws|apply skip_none]. Qed.

(** One more member of a list. *)
Lemma list_step d rest acc r :
  reads_doc d -> doc_ok true d ->
  match rest with TRcurl :: _ | TComma :: _ => True | _ => False end ->
  settles (fun n => do t2 <- cur (map Ok rest);
                    do s <- match t2 with TComma => advance (map Ok rest)
                            | _ => Ok (map Ok rest) end;
                    p_list n (acc ++ [doc_tree d]) s) r ->
  settles (fun n => p_list n acc (map Ok (doc_toks d ++ rest))) r
  /\ settles (fun n => p_list n acc (map Ok (after_item true (doc_toks d ++ rest)))) r.
Proof.
  intros R D E K.
  assert (U : unws rest = rest) by (destruct rest as [|[]]; try contradiction; reflexivity).
  assert (DE : doc_end false rest) by (destruct rest as [|[]]; try contradiction; exact I).
  pose proof (R true false rest D (fun _ => eq_refl) DE) as H. rewrite U in H.
  destruct (doc_toks_start d) as (t & ts & Et & St).
  set (g := fun n => do (a, s) <- p_expr n false (map Ok (doc_toks d ++ rest));
                     do t2 <- cur s;
                     do s <- match t2 with TComma => advance s | _ => Ok s end;
                     p_list n (acc ++ [a]) s).
  assert (G : settles g r).
  { apply (settles_bind _
      (fun (p : node * stream) n => let (a, s) := p in
         do t2 <- cur s;
         do s <- match t2 with TComma => advance s | _ => Ok s end;
         p_list n (acc ++ [a]) s) (doc_tree d, map Ok rest)); assumption. }
  split; (apply (settles_step _ g); [|exact G]); intros n; cbn [p_list]; unfold g;
    rewrite Et; cbn [app].
  - rewrite cur_ok. cbn [rbind]. rewrite skip_none by (apply doc_start_ws, St).
    destruct t; try contradiction St; reflexivity.
  - cbn [after_item]. rewrite cur_ok. cbn [rbind].
    rewrite skip_ws by (apply doc_start_ws, St). reflexivity.
Qed.

Lemma list_rest sp rest l : Forall reads_doc l -> Forall (doc_ok true) l ->
  forall acc,
  let s := map Ok (flat_map (fun x => comma_toks sp ++ x) (map doc_toks l)
                   ++ TRcurl :: rest) in
  settles (fun n => do t2 <- cur s;
                    do s <- match t2 with TComma => advance s | _ => Ok s end;
                    p_list n acc s)
          (Ok (NList (acc ++ map doc_tree l), map Ok (TRcurl :: rest))).
Proof.
  induction 1 as [|d l R L IH]; intros D acc s.
  - apply settles_now. intros n. cbn. rewrite app_nil_r. reflexivity.
  - inversion D as [|? ? D1 D2]; subst. specialize (IH D2 (acc ++ [doc_tree d])).
    cbv zeta in IH.
    unfold s. cbn [map flat_map]. rewrite <- app_assoc, comma_split.
    eapply settles_ext.
    { intros n. rewrite cur_ok. cbn [rbind]. rewrite advance_ok. cbn [rbind tl]. reflexivity. }
    assert (E : forall more, match flat_map (fun x => comma_toks sp ++ x) (map doc_toks l) ++ TRcurl :: more
                with TRcurl :: _ | TComma :: _ => True | _ => False end)
      by (intros more; destruct l; [exact I|destruct sp; exact I]).
    pose proof (list_step d _ acc _ R D1 (E rest) IH) as [G1 G2].
    rewrite <- app_assoc in G1, G2. cbn [app] in G1, G2.
    destruct sp; cbn [after_item]; [exact G2|exact G1].
Qed.

Lemma list_head sp l rest : Forall reads_doc l -> Forall (doc_ok true) l ->
  settles (fun n => p_list n [] (map Ok (sep_toks (comma_toks sp) (map doc_toks l)
                                         ++ TRcurl :: rest)))
          (Ok (NList (map doc_tree l), map Ok (TRcurl :: rest))).
Proof.
  intros R D. destruct l as [|d l].
  - apply settles_now. reflexivity.
  - inversion R; subst. inversion D; subst. cbn [map sep_toks]. rewrite <- app_assoc.
    apply list_step; try assumption.
    + destruct l; [exact I|destruct sp; exact I].
    + apply (list_rest sp rest l); assumption.
Qed.

Lemma truthy_tree e : truthy (tree e) = true.
Proof. induction e using exp_rect2; try reflexivity. exact IHe. Qed.
Lemma truthy_doc d : truthy (doc_tree d) = true.
Proof. induction d using doc_rect2; try reflexivity; [apply truthy_tree|exact IHd]. Qed.

Lemma unws_sp sp t more : t <> TWhitespace ->
  unws (sp_toks sp t ++ more) = t :: after_item sp more.
Proof. intros H. destruct sp; [reflexivity|]. destruct t; try reflexivity. congruence. Qed.

Lemma assoc_step sp k v rest ks vs r :
  reads_doc k -> reads_doc v -> doc_ok false k -> doc_ok false v ->
  match rest with TRassoc :: _ | TComma :: _ => True | _ => False end ->
  settles (fun n => do t2 <- cur (map Ok rest);
                    do s <- match t2 with TComma => advance (map Ok rest)
                            | _ => Ok (map Ok rest) end;
                    p_assoc n (ks ++ [doc_tree k]) (vs ++ [doc_tree v]) s) r ->
  settles (fun n => p_assoc n ks vs
     (map Ok ((doc_toks k ++ sp_toks sp TArrow ++ doc_toks v) ++ rest))) r
  /\ settles (fun n => p_assoc n ks vs
     (map Ok (after_item true ((doc_toks k ++ sp_toks sp TArrow ++ doc_toks v) ++ rest)))) r.
Proof.
  intros RK RV DK DV E K.
  assert (U : unws rest = rest) by (destruct rest as [|[]]; try contradiction; reflexivity).
  assert (DE : doc_end true rest) by (destruct rest as [|[]]; try contradiction; exact I).
  assert (F : false = true -> true = false) by discriminate.
  pose proof (RV false true rest DV F DE) as HV. rewrite U in HV.
  assert (DK2 : doc_end true (sp_toks sp TArrow ++ doc_toks v ++ rest))
    by (destruct sp; reflexivity).
  pose proof (RK false true _ DK F DK2) as HK.
  rewrite unws_sp in HK by discriminate.
  rewrite <- !app_assoc.
  destruct (doc_toks_start k) as (t & ts & Et & St).
  destruct (doc_toks_start v) as (t' & ts' & Et' & St').
  set (s1 := map Ok (doc_toks k ++ sp_toks sp TArrow ++ doc_toks v ++ rest)) in *.
  set (g := fun n =>
    do (k, s) <- p_expr n true s1;
    do s <- skip_white s;
    do t2 <- cur s;
    do (v, s) <- match t2 with
                 | TArrow =>
                     do s <- advance s; do s <- skip_white s; p_expr n true s
                 | _ => Ok (NNone, s)
                 end;
    if truthy k && truthy v
    then do t3 <- cur s;
         do s <- match t3 with TComma => advance s | _ => Ok s end;
         p_assoc n (ks ++ [k]) (vs ++ [v]) s
    else Err EException).
  assert (G : settles g r).
  { unfold g.
    apply (settles_bind _
      (fun (p : node * stream) n => let (k, s) := p in
         do s <- skip_white s;
         do t2 <- cur s;
         do (v, s) <- match t2 with
                      | TArrow =>
                          do s <- advance s; do s <- skip_white s; p_expr n true s
                      | _ => Ok (NNone, s)
                      end;
         if truthy k && truthy v
         then do t3 <- cur s;
              do s <- match t3 with TComma => advance s | _ => Ok s end;
              p_assoc n (ks ++ [k]) (vs ++ [v]) s
         else Err EException) _ _ HK).
    eapply settles_ext.
    { intros n. cbv beta iota. rewrite skip_none by exact I. cbn [rbind].
      rewrite cur_ok. cbn [rbind]. rewrite advance_ok. cbn [rbind tl].
      rewrite skip_after_item by (rewrite Et'; apply doc_start_ws, St').
      cbn [rbind]. reflexivity. }
    apply (settles_bind _
      (fun (p : node * stream) n => let (v, s) := p in
         if truthy (doc_tree k) && truthy v
         then do t3 <- cur s;
              do s <- match t3 with TComma => advance s | _ => Ok s end;
              p_assoc n (ks ++ [doc_tree k]) (vs ++ [v]) s
         else Err EException) _ _ HV).
    cbv beta iota. rewrite !truthy_doc. cbn [andb]. exact K. }
  split; (apply (settles_step _ g); [|exact G]); intros n; cbn [p_assoc]; unfold g, s1;
    rewrite Et; cbn [app].
  - rewrite cur_ok. cbn [rbind]. rewrite skip_none by (apply doc_start_ws, St).
    destruct t; try contradiction St; reflexivity.
  - cbn [after_item]. rewrite cur_ok. cbn [rbind].
    rewrite skip_ws by (apply doc_start_ws, St). reflexivity.
Qed.

Definition pair_toks (sp : bool) (x : doc * doc) : list token :=
  doc_toks (fst x) ++ sp_toks sp TArrow ++ doc_toks (snd x).

Lemma assoc_rest sp rest l :
  Forall (fun x => reads_doc (fst x) /\ reads_doc (snd x)) l ->
  Forall (fun x => doc_ok false (fst x) /\ doc_ok false (snd x)) l ->
  forall ks vs,
  let s := map Ok (flat_map (fun x => comma_toks sp ++ x) (map (pair_toks sp) l)
                   ++ TRassoc :: rest) in
  settles (fun n => do t2 <- cur s;
                    do s <- match t2 with TComma => advance s | _ => Ok s end;
                    p_assoc n ks vs s)
          (Ok (NAssoc (ks ++ map (fun x => doc_tree (fst x)) l)
                      (vs ++ map (fun x => doc_tree (snd x)) l),
               map Ok (TRassoc :: rest))).
Proof.
  induction 1 as [|d l [RK RV] L IH]; intros D ks vs s.
  - apply settles_now. intros n. cbn. rewrite !app_nil_r. reflexivity.
  - inversion D as [|? ? [D1 D1'] D2]; subst.
    specialize (IH D2 (ks ++ [doc_tree (fst d)]) (vs ++ [doc_tree (snd d)])).
    cbv zeta in IH.
    unfold s. cbn [map flat_map]. rewrite <- app_assoc, comma_split.
    eapply settles_ext.
    { intros n. rewrite cur_ok. cbn [rbind]. rewrite advance_ok. cbn [rbind tl]. reflexivity. }
    assert (E : forall more, match flat_map (fun x => comma_toks sp ++ x) (map (pair_toks sp) l) ++ TRassoc :: more
                with TRassoc :: _ | TComma :: _ => True | _ => False end)
      by (intros more; destruct l; [exact I|destruct sp; exact I]).
    pose proof (assoc_step sp (fst d) (snd d) _ ks vs _ RK RV D1 D1' (E rest) IH) as [G1 G2].
    fold (pair_toks sp d) in G1, G2.
    rewrite <- !(app_assoc ks), <- !(app_assoc vs) in G1, G2. cbn [app] in G1, G2.
    destruct sp; cbn [after_item]; [exact G2|exact G1].
Qed.

Lemma assoc_head sp l rest :
  Forall (fun x => reads_doc (fst x) /\ reads_doc (snd x)) l ->
  Forall (fun x => doc_ok false (fst x) /\ doc_ok false (snd x)) l ->
  settles (fun n => p_assoc n [] []
             (map Ok (sep_toks (comma_toks sp) (map (pair_toks sp) l) ++ TRassoc :: rest)))
          (Ok (NAssoc (map (fun x => doc_tree (fst x)) l)
                      (map (fun x => doc_tree (snd x)) l), map Ok (TRassoc :: rest))).
Proof.
  intros R D. destruct l as [|d l].
  - apply settles_now. reflexivity.
  - inversion R as [|? ? [R1 R2] R3]; subst. inversion D as [|? ? [D1 D2] D3]; subst.
    cbn [map sep_toks]. rewrite <- app_assoc.
    apply (assoc_step sp (fst d) (snd d)); try assumption.
    + destruct l; [exact I|destruct sp; exact I].
    + apply (assoc_rest sp rest l); assumption.
Qed.

Lemma reads_doc_all d : reads_doc d.
Proof.
  induction d using doc_rect2; intros rule assoc rest D RA E; cbn [doc_toks doc_tree];
    cbn [doc_ok] in D.
  - destruct (reads_all sp e) as (X & _). apply X; [eapply doc_end_2, E|].
    apply doc_end_loop, E.
  - cbn [app]. apply expr_by_head; [discriminate|exact E|].
    apply settles_now. intros n. cbn [fhead]. rewrite advance_ok. reflexivity.
  - destruct D as (-> & _). rewrite (RA eq_refl) in *. clear RA.
    destruct (reads_all spa a) as (A & _). destruct (reads_all spb b) as (B & _).
    rewrite <- !app_assoc. apply A; [destruct sp; reflexivity|].
    rewrite unws_sp by discriminate.
    eapply settles_step with
      (g := fun n => do (c, s) <- p_expr n false (map Ok (after_item sp (toks spb 1 b ++ rest)));
                     p_expr_loop n false (NEq (tree a) c) s).
    { intros n. cbn [p_expr_loop]. rewrite tok_nth. cbn [nth_error].
      rewrite advance_ok. reflexivity. }
    apply (settles_bind _
      (fun (p : node * stream) n => let (c, s) := p in p_expr_loop n false (NEq (tree a) c) s)
      (tree b, map Ok (unws rest))); [|apply doc_end_loop, E].
    assert (H : settles (fun n => p_expr n false (map Ok (toks spb 1 b ++ rest)))
                  (Ok (tree b, map Ok (unws rest)))).
    { apply B; [eapply doc_end_2, E|apply doc_end_loop, E]. }
    destruct sp; cbn [after_item]; [apply expr_after_ws; [apply toks_not_ws|exact H]|exact H].
  - cbn [app]. rewrite <- app_assoc. cbn [app].
    apply expr_by_head; [discriminate|exact E|].
    eapply settles_ext.
    { intros n. cbn [fhead]. rewrite advance_ok. cbn [rbind tl]. reflexivity. }
    apply (settles_bind _
      (fun (p : node * stream) n => let (a, s) := p in
         do t2 <- cur s;
         match t2 with
         | TRcurl => do s <- advance s; Ok (a, s)
         | _ => Err EException
         end) (NList (map doc_tree l), map Ok (TRcurl :: rest))).
    + apply list_head; [exact H|apply fold_and, D].
    + apply settles_now. intros n. cbv beta iota. rewrite cur_ok. cbn [rbind].
      rewrite advance_ok. reflexivity.
  - cbn [app]. rewrite <- app_assoc. cbn [app].
    apply expr_by_head; [discriminate|exact E|].
    eapply settles_ext.
    { intros n. cbn [fhead]. rewrite advance_ok. cbn [rbind tl]. reflexivity. }
    apply (settles_bind _
      (fun (p : node * stream) n => let (a, s) := p in
         do t2 <- cur s;
         match t2 with
         | TRassoc => do s <- advance s; Ok (a, s)
         | _ => Err EException
         end) (doc_tree (DAssoc sp l), map Ok (TRassoc :: rest))).
    + apply (assoc_head sp l rest); [exact H|apply fold_and2, D].
    + apply settles_now. intros n. cbv beta iota. rewrite cur_ok. cbn [rbind].
      rewrite advance_ok. reflexivity.
  - apply (IHd rule); assumption.
Qed.

Theorem parse_doc d : doc_ok true d ->
  settles (fun n => parse n (lex (show_doc false d))) (Ok (doc_tree d)).
Proof.
  intros W. rewrite <- show_toks_doc. rewrite lex_shown by (eapply lexable_doc, W).
  pose proof (reads_doc_all d true false [] W (fun _ => eq_refl) I) as H.
  rewrite app_nil_r in H. cbn [unws map] in H.
  destruct (doc_toks_start d) as (t & ts & E & _).
  eapply settles_ext.
  { intros n. unfold parse. rewrite start_ok. cbn [rbind]. rewrite E. cbn [map]. reflexivity. }
  rewrite E in H.
  apply (settles_bind _
    (fun (p : node * stream) (n : nat) => let (r, s) := p in
       match s with [] => Ok r | _ :: _ => Err EException end) (doc_tree d, [])); [exact H|].
  apply settles_const.
Qed.

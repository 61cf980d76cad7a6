(** Proofs of the refutations and helpers for the examples of Props_Parse. *)
From Verif Require Import Base LexM ParseM InterpM SpecParse Lex_P Parse_P Doc_P Text_P
  Term_P Term2_P Read_P.
From Coq Require Import Ascii.
Import List.

(** An algebra of texts: every expression is the text of its construction. *)
Definition txt2 (o : string) (a b : text) : res text :=
  Ok (chars "(" ++ a ++ chars o ++ b ++ chars ")").

#[export] Instance TextOps : PyOps := {
  E := text;
  o_sympify t := Ok t;
  o_add := txt2 "+";
  o_mul := txt2 "*";
  o_pow := txt2 "^";
  o_neg a := Ok (chars "-" ++ a);
  o_eq := txt2 "=";
  o_minus_one := chars "-1";
  o_symbol t := t;
  o_apply f l := Ok (f ++ chars "(" ++ concat l ++ chars ")");
  o_function f l := Ok (f ++ chars "(" ++ concat l ++ chars ")");
  o_diff f l := Ok (chars "d" ++ f ++ chars "/" ++ concat l);
  o_index t := match t with [c] => if digit c then Ok (nat_of_ascii c - 48) else Err ETypeError | _ => Err ETypeError end;
  o_literal _ := Err EValueError;
  o_same := text_eqb
}.

Lemma settles_same {X : Type} (f : nat -> res X) r r' : settles f r -> settles f r' -> r = r'.
Proof.
  intros [n H] [m G]. rewrite <- (H (n + m)) by lia. apply G. lia.
Qed.

Section Values.
Context {O : PyOps}.

Theorem stuck_text c rest : c = ")"%char \/ c = "]"%char ->
  (forall e, ~ In (Err e) (lex rest)) ->
  never_ends (fun n => parse n (lex ("{"%char :: c :: rest))).
Proof.
  intros C R n.
  assert (E : exists t, other_close t = true /\
            lex ("{"%char :: c :: rest) = Ok TLcurl :: Ok t :: lex rest).
  { destruct C as [-> | ->]; [exists TRparen|exists TRbrace]; (split; [reflexivity|]);
      unfold lex; cbn [List.length]; destruct rest as [|x [|y rest]]; reflexivity. }
  destruct E as (t & T & ->). apply (stuck_parse t (lex rest) T R n).
Qed.

Theorem never_ends_str s : never_ends (fun n => parse n (lex (normalise s))) ->
  never_ends (fun n => parse_str n s).
Proof. intros H n. unfold parse_str. rewrite (H n). reflexivity. Qed.

Theorem stuck_witness : exists s, never_ends (fun n => parse_str n s).
Proof.
  exists (chars "{)"). apply never_ends_str.
  change (normalise (chars "{)")) with (chars "{)").
  apply (stuck_text ")"%char []); [auto|]. intros e [].
Qed.

Theorem terminates_str l : ~ In "{"%char l ->
  exists r, r <> Err EFuel /\ settles (fun n => parse_str n l) (do a <- r; visit a).
Proof.
  intros H. destruct (parse_terminates l H) as (r & N & [n S]). exists r. split; [exact N|].
  exists n. intros m L. unfold parse_str. rewrite (S m L). reflexivity.
Qed.

Theorem apostrophe_witness : exists s, settles (fun n => parse_str n (quoted s)) (Ok (VS (chars "ab")))
  /\ s <> chars "ab".
Proof.
  exists (chars "ab'"). split; [|discriminate].
  apply (apostrophe_lost (chars "ab")); reflexivity.
Qed.

Theorem name_witness : exists s, ~ settles (fun n => parse_str n (quoted s)) (Ok (VS s)).
Proof.
  destruct apostrophe_witness as (s & H & N). exists s. intros G.
  pose proof (settles_same _ _ _ H G) as E. apply N. assert (X : chars "ab" = s) by congruence. symmetry. exact X.
Qed.

Theorem spaces_witness : exists s t, s <> t /\ settles (fun n => parse_str n (quoted s)) (Ok (VS t)).
Proof.
  exists (chars "a  b"), (chars "a b"). split; [discriminate|].
  destruct (read_name (chars "a b")) as [n H].
  { repeat split; discriminate. }
  exists n. intros m L. rewrite <- (H m L). reflexivity.
Qed.

Theorem decimal_witness : exists a b, number a /\ number b /\
  settles (fun n => parse_str n (a ++ chars "." ++ b)) (Err EException).
Proof.
  exists (chars "1"), (chars "5").
  assert (A : number (chars "1")) by (split; [discriminate|reflexivity]).
  assert (B : number (chars "5")) by (split; [discriminate|reflexivity]).
  split; [exact A|]. split; [exact B|]. apply decimal_fails; assumption.
Qed.

End Values.

Theorem stray_witness : exists l ts, lex l = map Ok ts /\
  forallb (fun c => negb (quotation c) && negb (c =? ".")%char) l = true /\
  show_toks ts <> map (fun c => if white c then " "%char else c) l.
Proof.
  exists (chars "1>2+3"), [TExpr (chars "1"); TPlus; TExpr (chars "3")].
  repeat split; discriminate.
Qed.

(** ** Associations with names as keys *)
Section Assoc.
Context {O : PyOps}.

Lemma visit_name s : plain_name s -> visit (NStr (quoted s)) = Ok (VS s).
Proof.
  intros (Q & B & S). cbn [visit]. rewrite greek_id.
  - unfold literal_eval. rewrite literal_quoted by assumption. reflexivity.
  - unfold quoted, no_backslash in *. cbn [forallb]. rewrite forallb_app, B. reflexivity.
Qed.

Lemma text_eqb_spec a b : text_eqb a b = true <-> a = b.
Proof. unfold text_eqb. destruct (list_eq_dec ascii_dec a b); split; congruence. Qed.

Lemma dict_set_new k v d : (forall k' v', In (k', v') d -> key_same k' k = false) ->
  dict_set k v d = d ++ [(k, v)].
Proof.
  induction d as [|[k' v'] d IH]; intros H; [reflexivity|].
  cbn [dict_set app]. rewrite (H k' v') by (left; reflexivity). f_equal. apply IH.
  intros k2 v2 I. apply (H k2 v2). right. exact I.
Qed.

Lemma build_names (ks : list text) : forall (vs : list val) d,
  List.length ks = List.length vs -> NoDup ks ->
  (forall k v, In (k, v) d -> exists s, k = VS s /\ ~ In s ks) ->
  build_dict (combine (map (fun s => Ok (VS s)) ks) (map Ok vs)) d
  = Ok (VD (d ++ combine (map VS ks) vs)).
Proof.
  induction ks as [|k ks IH]; intros vs d L N D.
  - destruct vs; [|discriminate]. cbn. rewrite app_nil_r. reflexivity.
  - destruct vs as [|v vs]; [discriminate|]. injection L as L. inversion N as [|? ? K N']; subst.
    cbn [map combine build_dict rbind hashable].
    rewrite dict_set_new.
    + rewrite IH; [|exact L|exact N'|].
      * rewrite <- app_assoc. reflexivity.
      * intros k2 v2 I. apply in_app_or in I as [I|[I|[]]].
        -- destruct (D _ _ I) as (s & -> & S). exists s. split; [reflexivity|].
           intros J. apply S. right. exact J.
        -- injection I as <- <-. exists k. auto.
    + intros k' v' I. destruct (D _ _ I) as (s & -> & S). cbn [key_same].
      destruct (text_eqb s k) eqn:E; [|reflexivity]. apply text_eqb_spec in E. subst s.
      exfalso. apply S. left. reflexivity.
Qed.

Lemma rall_ok (l : list (res val)) vs : rall l = Ok vs -> l = map Ok vs.
Proof.
  revert vs. induction l as [|x l IH]; intros vs H; cbn [rall] in H.
  - injection H as <-. reflexivity.
  - destruct x as [y|]; [|discriminate]. cbn [rbind] in H.
    destruct (rall l) as [ys|]; [|discriminate]. cbn [rbind] in H. injection H as <-.
    cbn [map]. f_equal. apply IH. reflexivity.
Qed.

Definition named (l : list (text * doc)) : list (doc * doc) :=
  map (fun p => (DStr (fst p), snd p)) l.

Theorem read_assoc mk sp (l : list (text * doc)) vs :
  NoDup (map fst l) ->
  Forall (fun p => plain_name (fst p) /\ doc_ok false (snd p) /\ names_plain (snd p)) l ->
  rall (map (fun p => visit (doc_tree (snd p))) l) = Ok vs ->
  settles (fun n => parse_str n (show_doc mk (DAssoc sp (map (fun p => (DStr (fst p), snd p)) l))))
    (Ok (VD (combine (map VS (map fst l)) vs))).
Proof.
  intros N F V.
  assert (D : doc_ok true (DAssoc sp (named l)) /\ names_plain (DAssoc sp (named l))).
  { cbn [doc_ok names_plain]. clear N V. induction F as [|[k d] l (P & D & Q) F IH]; [split; exact I|].
    cbn [named map fold_right fst snd doc_ok names_plain] in *. destruct IH as [IH1 IH2].
    split; (split; [|split; assumption]); [apply P|exact P]. }
  destruct D as [D Q]. pose proof (read_doc mk (DAssoc sp (named l)) D Q) as R.
  assert (E : visit (doc_tree (DAssoc sp (named l)))
              = Ok (VD (combine (map VS (map fst l)) vs))).
  { cbn [doc_tree visit]. apply rall_ok in V.
    assert (K : map visit (map (fun x => doc_tree (fst x)) (named l))
                = map (fun s => Ok (VS s)) (map fst l)).
    { unfold named. rewrite !map_map. apply map_ext_in. intros [k d] I. cbn [fst snd].
      rewrite Forall_forall in F. apply visit_name. apply (F (k, d) I). }
    assert (W : map visit (map (fun x => doc_tree (snd x)) (named l)) = map Ok vs).
    { rewrite <- V. unfold named. rewrite !map_map. reflexivity. }
    rewrite K, W, build_names; [reflexivity| |exact N|intros ? ? []].
    rewrite map_length. apply (f_equal (@List.length _)) in V. rewrite !map_length in V. exact V. }
  rewrite E in R. exact R.
Qed.

(** ** Function calls *)
Theorem read_call sp f a l : words_ok (ECall f a l) -> f <> chars "Derivative" ->
  settles (fun n => parse_str n (show sp 1 (ECall f a l)))
    (do es <- rmap (fun x => o_sympify (repr (tree x))) (a :: l);
     do e <- o_apply f es; Ok (VE e)).
Proof.
  intros W D. pose proof (read_exp sp (ECall f a l) W) as R.
  assert (E : visit (tree (ECall f a l))
    = do es <- rmap (fun x => o_sympify (repr (tree x))) (a :: l);
      do e <- o_apply f es; Ok (VE e)).
  { cbn [tree visit]. destruct (text_eqb f (chars "Derivative")) eqn:T.
    { apply text_eqb_spec in T. contradiction. }
    destruct l as [|b l]; cbn [sympify_args rmap].
    - destruct (o_sympify (repr (tree a))); reflexivity.
    - assert (M : forall l, rmap (fun a => o_sympify (repr a)) (map tree l)
                            = rmap (fun x => o_sympify (repr (tree x))) l).
      { clear. induction l as [|x l IH]; [reflexivity|]. cbn [map rmap]. rewrite IH. reflexivity. }
      change (tree a :: map tree (b :: l)) with (map tree (a :: b :: l)). rewrite M. reflexivity. }
  rewrite E in R. exact R.
Qed.

Theorem nested_call_fails sp f g a l e : words_ok (ECall f (ECall g a l) []) ->
  f <> chars "Derivative" ->
  o_sympify (repr (tree (ECall g a l))) = Err e ->
  settles (fun n => parse_str n (show sp 1 (ECall f (ECall g a l) []))) (Err e).
Proof.
  intros W D S. pose proof (read_call sp f (ECall g a l) [] W D) as R.
  cbn [rmap] in R. rewrite S in R. exact R.
Qed.

End Assoc.

Theorem nested_witness (O : PyOps) (e : exn) : o_sympify (chars "(Cos[x])") = Err e ->
  exists s, s = chars "Sin[Cos[x]]" /\ settles (fun n => parse_str n s) (Err e).
Proof.
  intros S. eexists. split; [reflexivity|].
  apply (nested_call_fails false (chars "Sin") (chars "Cos") (EWord (chars "x")) [] e).
  - repeat split; discriminate.
  - discriminate.
  - exact S.
Qed.

(** Properties of the reader of Mathematica text: C57 - C62, C68 - C70
    and C77 - C82. *)
From Verif Require Import Base LexM ParseM InterpM SpecParse Parse_P Doc_P Text_P
  Term2_P Read_P Witness_Parse_P Value_P Value2_P.
From Coq Require Import Ascii.
Import List.

(** C57.  The property is false: on the text {) no amount of fuel is enough. *)
Theorem C57_parser_terminates_refuted :
  forall O : PyOps, exists s, never_ends (fun n => parse_str n s).
Proof. exact (@stuck_witness). Qed.
Print Assumptions C57_parser_terminates_refuted.

(** C57, extent of the fault: a curly bracket followed by another closing bracket. *)
Theorem C57_stuck_list :
  forall (c : ascii) (rest : text),
  c = ")"%char \/ c = "]"%char -> (forall e, ~ In (Err e) (lex rest)) ->
  never_ends (fun n => parse n (lex ("{"%char :: c :: rest))).
Proof. exact stuck_text. Qed.
Print Assumptions C57_stuck_list.

(** C57 holds for every text without an opening curly bracket: reading it ends, with the
    value of a tree or with an error that is not the exhaustion of fuel. *)
Theorem C57_terminates_without_lists :
  forall (O : PyOps) (s : text), ~ In "{"%char s ->
  exists r, r <> Err EFuel /\ settles (fun n => parse_str n s) (do a <- r; visit a).
Proof. exact (@terminates_str). Qed.
Print Assumptions C57_terminates_without_lists.

Example C57_text : ~ In "{"%char (chars "f[x -> (<|a->>").
Proof. cbn. intuition discriminate. Qed.

(** C58 *)
Theorem C58_expressions_parsed_back :
  forall (sp : bool) (e : exp), words_ok e ->
  settles (fun n => parse n (lex (show sp 1 e))) (Ok (tree e)).
Proof. exact parse_exp. Qed.
Print Assumptions C58_expressions_parsed_back.

(** C58, through parse_str. *)
Theorem C58_expressions_read :
  forall (O : PyOps) (sp : bool) (e : exp), words_ok e ->
  settles (fun n => parse_str n (show sp 1 e)) (visit (tree e)).
Proof. exact (@read_exp). Qed.
Print Assumptions C58_expressions_read.

Example C58_case :
  let e := EAdd (ENeg (EPow (EMul (EWord (chars "x")) (EWord (chars "2"))) (EWord (chars "y"))))
                (ECall (chars "f") (ESub (EWord (chars "a")) (ESub (EWord (chars "b")) (EWord (chars "c"))))
                       [EDiv (EWord (chars "t")) (EMul (EWord (chars "u")) (EWord (chars "v")))]) in
  words_ok e /\ show false 1 e = chars "-(x*2)^y+f[a-(b-c),t/(u*v)]"
  /\ show true 1 e = chars "-(x*2)^y + f[a - (b - c), t/(u*v)]".
Proof. repeat split; discriminate. Qed.

(** C59.  The property is false: an apostrophe at the end of a name is lost, ... *)
Theorem C59_quoted_names_refuted :
  forall O : PyOps, exists s, ~ settles (fun n => parse_str n (quoted s)) (Ok (VS s)).
Proof. exact (@name_witness). Qed.
Print Assumptions C59_quoted_names_refuted.

(** ... as it is for every name without double quotes and backslashes, ... *)
Theorem C59_apostrophe_lost :
  forall (O : PyOps) (s : text), forallb (fun c => negb (c =? dquote)%char) s = true ->
  no_backslash s = true -> single_spaces false (s ++ [dquote]) = true ->
  settles (fun n => parse_str n (quoted (s ++ [squote]))) (Ok (VS s)).
Proof. exact (@apostrophe_lost). Qed.
Print Assumptions C59_apostrophe_lost.

(** ... spaces are merged, ... *)
Theorem C59_spaces_refuted :
  forall O : PyOps, exists s t, s <> t /\ settles (fun n => parse_str n (quoted s)) (Ok (VS t)).
Proof. exact (@spaces_witness). Qed.
Print Assumptions C59_spaces_refuted.

(** ... and the empty name takes the text after it into the string. *)
Theorem C59_empty_name_swallows :
  forall rest : text, rest <> [] -> forallb (fun x => negb (quotation x)) rest = true ->
  lex (quoted [] ++ rest) = [Ok (TString (quoted (dquote :: rest)))].
Proof. exact empty_name_swallows. Qed.
Print Assumptions C59_empty_name_swallows.

Example C59_case :
  forallb (fun c => negb (c =? dquote)%char) (chars "f prime") = true /\
  no_backslash (chars "f prime") = true /\
  single_spaces false (chars "f prime" ++ [dquote]) = true.
Proof. repeat split; reflexivity. Qed.

(** C60 *)
Theorem C60_names_read_back :
  forall (O : PyOps) (s : text), plain_name s ->
  settles (fun n => parse_str n (chars """" ++ s ++ chars """")) (Ok (VS s)).
Proof. exact (@read_name). Qed.
Print Assumptions C60_names_read_back.

Theorem C60_rest_is_separate :
  forall (s rest : text), quotable s ->
  lex (quoted s ++ rest) = Ok (TString (quoted s)) :: lex rest.
Proof. exact lex_name_apart. Qed.
Print Assumptions C60_rest_is_separate.

Example C60_case : plain_name (chars "Schwarzschild metric (c=1), it's {diagonal}!").
Proof. repeat split; discriminate. Qed.

(** C61.  The property is false: every decimal number with digits on both sides of its
    point raises an exception. *)
Theorem C61_decimals_refuted :
  forall O : PyOps, exists a b, number a /\ number b /\
  settles (fun n => parse_str n (a ++ chars "." ++ b)) (Err EException).
Proof. exact (@decimal_witness). Qed.
Print Assumptions C61_decimals_refuted.

Theorem C61_every_decimal_fails :
  forall (O : PyOps) (a b : text), number a -> number b ->
  settles (fun n => parse_str n (a ++ chars "." ++ b)) (Err EException).
Proof. exact (@decimal_fails). Qed.
Print Assumptions C61_every_decimal_fails.

(** C61 holds for the numbers that begin with their point. *)
Theorem C61_leading_point :
  forall (O : PyOps) (b : text), number b ->
  settles (fun n => parse_str n (chars "." ++ b)) (visit (NExpr (chars "0." ++ b))).
Proof. exact (@leading_point). Qed.
Print Assumptions C61_leading_point.

(** C62.  The property is false: in 1>2+3 the sign and the digit after it disappear. *)
Theorem C62_no_characters_dropped_refuted :
  exists l ts, lex l = map Ok ts /\
  forallb (fun c => negb (quotation c) && negb (c =? ".")%char) l = true /\
  show_toks ts <> map (fun c => if white c then " "%char else c) l.
Proof. exact stray_witness. Qed.
Print Assumptions C62_no_characters_dropped_refuted.

(** C62, extent of the fault: a stray sign takes the next character with it. *)
Theorem C62_stray_less :
  forall d rest, d <> "|"%char -> lex ("<"%char :: d :: rest) = lex rest.
Proof. exact stray_less. Qed.
Print Assumptions C62_stray_less.
Theorem C62_stray_greater : forall d rest, lex (">"%char :: d :: rest) = lex rest.
Proof. exact stray_greater. Qed.
Print Assumptions C62_stray_greater.
Theorem C62_stray_bar :
  forall d rest, d <> ">"%char -> lex ("|"%char :: d :: rest) = lex rest.
Proof. exact stray_bar. Qed.
Print Assumptions C62_stray_bar.

(** C62 holds for the texts without stray signs, quotes and points: the tokens, written one
    after the other, are the text. *)
Theorem C62_all_characters_kept :
  forall l ts, lex l = map Ok ts ->
  forallb (fun c => negb (quotation c) && negb (c =? ".")%char) l = true ->
  no_stray l = true ->
  show_toks ts = map (fun c => if white c then " "%char else c) l.
Proof. exact lex_lossless. Qed.
Print Assumptions C62_all_characters_kept.

Example C62_case :
  let l := chars "<|a -> {x^2, \[Theta]}|>" in
  lex l = map Ok [TLassoc; TExpr (chars "a"); TWhitespace; TArrow; TWhitespace; TLcurl;
                  TExpr (chars "x"); TPower; TExpr (chars "2"); TComma; TWhitespace; TCommand;
                  TLbrace; TExpr (chars "Theta"); TRbrace; TRcurl; TRassoc]
  /\ forallb (fun c => negb (quotation c) && negb (c =? ".")%char) l = true
  /\ no_stray l = true.
Proof. repeat split; reflexivity. Qed.

(** C68 *)
Theorem C68_documents_parsed_back :
  forall d : doc, doc_ok true d ->
  settles (fun n => parse n (lex (show_doc false d))) (Ok (doc_tree d)).
Proof. exact parse_doc. Qed.
Print Assumptions C68_documents_parsed_back.

Theorem C68_documents_read :
  forall (O : PyOps) (mk : bool) (d : doc), doc_ok true d -> names_plain d ->
  settles (fun n => parse_str n (show_doc mk d)) (visit (doc_tree d)).
Proof. exact (@read_doc). Qed.
Print Assumptions C68_documents_read.

Example C68_case :
  let x := EAdd (EGreek (chars "Theta")) (EParen (ENeg (EWord (chars "x")))) in
  let d := DAssoc false [(DStr (chars "Name"), DStr (chars "g"));
     (DStr (chars "Components"),
      DAssoc false [(DList false [DExp false (EWord (chars "1")); DStr (chars "c")],
               DMark (DList true [DList true [DExp true x]; DList true []; DExp false x]))]);
     (DStr (chars "T"), DList false [DRule false true x false (EWord (chars "r"))])] in
  doc_ok true d /\ names_plain d
  /\ show_doc true d = chars ("<|""Name""->""g"",""Components""-><|{1,""c""}->{{\[Theta] + (-x)}, {}, "
       ++ "\[Theta]+(-x)}\\ReleaseHold|>,""T""->{\[Theta] + (-x)->r}|>").
Proof. repeat split; discriminate. Qed.

(** C69 *)
Theorem C69_association_keys :
  forall (O : PyOps) (mk sp : bool) (l : list (text * doc)) (vs : list val),
  NoDup (map fst l) ->
  Forall (fun p => plain_name (fst p) /\ doc_ok false (snd p) /\ names_plain (snd p)) l ->
  rall (map (fun p => visit (doc_tree (snd p))) l) = Ok vs ->
  settles (fun n => parse_str n (show_doc mk (DAssoc sp (map (fun p => (DStr (fst p), snd p)) l))))
    (Ok (VD (combine (map VS (map fst l)) vs))).
Proof. exact (@read_assoc). Qed.
Print Assumptions C69_association_keys.

Example C69_case :
  let l := [(chars "Role", DStr (chars "Tensor")); (chars "Rank", DExp true (EWord (chars "2")))] in
  NoDup (map fst l) /\
  Forall (fun p => plain_name (fst p) /\ doc_ok false (snd p) /\ names_plain (snd p)) l /\
  rall (map (fun p => @visit TextOps (doc_tree (snd p))) l)
  = Ok [VS (chars "Tensor"); @VE TextOps (chars "2")].
Proof.
  split; [|split].
  - constructor; [cbn; intuition discriminate|]. constructor; [intros []|constructor].
  - repeat constructor; discriminate.
  - vm_compute. reflexivity.
Qed.

(** C70.  A call gives SymPy the printed form of the nodes of its arguments, ... *)
Theorem C70_call_value :
  forall (O : PyOps) (sp : bool) (f : text) (a : exp) (l : list exp),
  words_ok (ECall f a l) -> f <> chars "Derivative" ->
  settles (fun n => parse_str n (show sp 1 (ECall f a l)))
    (do es <- rmap (fun x => o_sympify (repr (tree x))) (a :: l);
     do e <- o_apply f es; Ok (VE e)).
Proof. exact (@read_call). Qed.
Print Assumptions C70_call_value.

(** ... which for a call as argument is its Python form with brackets, such as (Cos[x]).
    Hypothesis on SymPy: it refuses to convert this text (a subscripted symbol).  Then every
    nested call fails. *)
Theorem C70_nested_calls_fail :
  forall (O : PyOps) (sp : bool) (f g : text) (a : exp) (l : list exp) (e : exn),
  words_ok (ECall f (ECall g a l) []) -> f <> chars "Derivative" ->
  o_sympify (repr (tree (ECall g a l))) = Err e ->
  settles (fun n => parse_str n (show sp 1 (ECall f (ECall g a l) []))) (Err e).
Proof. exact (@nested_call_fails). Qed.
Print Assumptions C70_nested_calls_fail.

(** C70.  The property is false for every SymPy that refuses the text (Cos[x]). *)
Theorem C70_nested_calls_refuted :
  forall (O : PyOps) (e : exn), o_sympify (chars "(Cos[x])") = Err e ->
  exists s, s = chars "Sin[Cos[x]]" /\ settles (fun n => parse_str n s) (Err e).
Proof. exact (@nested_witness). Qed.
Print Assumptions C70_nested_calls_refuted.

Example C70_case :
  let e := ECall (chars "Sin") (ECall (chars "Cos") (EWord (chars "x")) []) [] in
  words_ok e /\ show false 1 e = chars "Sin[Cos[x]]" /\
  repr (tree (ECall (chars "Cos") (EWord (chars "x")) [])) = chars "(Cos[x])".
Proof. repeat split; discriminate. Qed.

(** C77 *)
Theorem C77_expression_value :
  forall (O : PyOps) (sp : bool) (e : exp), words_ok e ->
  settles (fun n => parse_str n (show sp 1 e)) (do x <- meaning e; Ok (VE x)).
Proof. exact (@read_meaning). Qed.
Print Assumptions C77_expression_value.

Example C77_case :
  let e := ESub (EBy (EWord (chars "2")) (EPowS (EGreek (chars "CapitalOmega")) (EWord (chars "3"))))
                (EDiv (ENeg (EParen (EGreek (chars "Theta"))))
                      (ECall (chars "f") (EAdd (EWord (chars "x")) (EWord (chars "1"))) [EWord (chars "y")])) in
  words_ok e /\ show true 1 e = chars "2 \[CapitalOmega] ^ 3 - -(\[Theta])/f[x + 1, y]"
  /\ @meaning TextOps e = Ok (chars "((2*(Omega^3))+-(-theta*(f((x + 1)y)^-1)))").
Proof. repeat split; try discriminate; vm_compute; reflexivity. Qed.

(** C78.  The property is false for every SymPy that refuses the text GREEK:Theta, ... *)
Theorem C78_greek_arguments_refuted :
  forall (O : PyOps) (e : exn), o_sympify (chars "GREEK:Theta") = Err e ->
  exists s, s = chars "Sin[\[Theta]]" /\ settles (fun n => parse_str n s) (Err e).
Proof. exact greek_argument_witness. Qed.
Print Assumptions C78_greek_arguments_refuted.

(** ... and so for every function and every letter. *)
Theorem C78_every_greek_argument_fails :
  forall (O : PyOps) (sp : bool) (f v : text) (e : exn),
  word f -> word v -> f <> chars "Derivative" -> o_sympify (chars "GREEK:" ++ v) = Err e ->
  settles (fun n => parse_str n (show sp 1 (ECall f (EGreek v) []))) (Err e).
Proof. exact greek_argument. Qed.
Print Assumptions C78_every_greek_argument_fails.

Example C78_case : word (chars "Cos") /\ word (chars "Phi") /\ chars "Cos" <> chars "Derivative"
  /\ show false 1 (ECall (chars "Cos") (EGreek (chars "Phi")) []) = chars "Cos[\[Phi]]".
Proof. repeat split; discriminate. Qed.

(** C79.  Hypothesis on SymPy: == is the equality of expressions. *)
Theorem C79_document_value :
  forall (O : PyOps), (forall x y : E, o_same x y = true <-> x = y) ->
  forall (mk : bool) (d : doc) (v : val), doc_ok true d -> names_plain d ->
  doc_value d = Some v -> settles (fun n => parse_str n (show_doc mk d)) (Ok v).
Proof. exact (@read_value). Qed.
Print Assumptions C79_document_value.

Example C79_case :
  let k := DList false [DExp false (EWord (chars "1")); DStr (chars "c")] in
  let d := DAssoc false [(DStr (chars "a"), DAssoc false [(k, DMark (DList true []))]);
     (DExp false (EWord (chars "x")), DStr (chars "s"));
     (DStr (chars "a"), DList true [DRule true true (EGreek (chars "Theta")) true (EWord (chars "t"))])] in
  doc_ok true d /\ names_plain d
  /\ show_doc true d = chars ("<|""a""-><|{1,""c""}->{}\\ReleaseHold|>,x->""s"",""a""->{\[Theta] -> t}|>")
  /\ @doc_value TextOps d = Some (VD [(VS (chars "a"), VL [@VE TextOps (chars "(theta=t)")]);
                                     (@VE TextOps (chars "x"), VS (chars "s"))])
  /\ @doc_value TextOps (DAssoc false [(k, DList true [])])
     = Some (VT [VL [@VE TextOps (chars "1"); VS (chars "c")]] [VL []])
  /\ (forall x y, @o_same TextOps x y = true <-> x = y).
Proof. repeat split; try discriminate; try (vm_compute; reflexivity); apply text_eqb_spec. Qed.

(** C80 *)
Theorem C80_greek_letters_in_names :
  forall (O : PyOps) (l : list piece), Forall piece_ok l -> quotable (flat_map piece_text l) ->
  single_spaces false (flat_map piece_text l ++ [dquote]) = true ->
  settles (fun n => parse_str n (quoted (flat_map piece_text l)))
    (Ok (VS (flat_map piece_name l))).
Proof. exact (@read_greek_name). Qed.
Print Assumptions C80_greek_letters_in_names.

Example C80_case :
  let l := [PText (chars "h"); PCapital "gamma"; PText (chars "[i], "); PSmall "eta"; PBlank; PSmall "beta"] in
  Forall piece_ok l /\ flat_map piece_text l = chars "h\[CapitalGamma][i], \[Eta]\[DottedSquare]\[Beta]"
  /\ flat_map piece_name l = chars "hGamma[i], etabeta"
  /\ quotable (flat_map piece_text l)
  /\ single_spaces false (flat_map piece_text l ++ [dquote]) = true.
Proof.
  repeat split; try discriminate; try reflexivity.
  repeat constructor; try reflexivity; cbn; tauto.
Qed.

(** C81.  The property is false: f[x][y] and f[x][z, t] have the same value, ... *)
Theorem C81_all_groups_count_refuted :
  forall O : PyOps,
  exists r, settles (fun n => parse_str n (chars "f[x][y]")) r
         /\ settles (fun n => parse_str n (chars "f[x][z, t]")) r.
Proof. exact group_lost_witness. Qed.
Print Assumptions C81_all_groups_count_refuted.

(** ... the value of the call with the first group alone, whatever follows. *)
Theorem C81_later_groups_lost :
  forall (O : PyOps) (sp : bool) (f : text) (g : exp * list exp) (gs : list (exp * list exp)),
  word f -> group_ok g -> Forall group_ok gs -> f <> chars "Derivative" ->
  settles (fun n => parse_str n (f ++ flat_map (show_group sp) (g :: gs)))
    (do x <- meaning (ECall f (fst g) (snd g)); Ok (VE x)).
Proof. exact group_lost. Qed.
Print Assumptions C81_later_groups_lost.

(** C81 holds for Derivative: Derivative[n1, ..., nk][f][x1, ..., xk] is the function f of x1, ..., xk
    differentiated n1 times by x1, and so on; where there are at least two orders, the last of them
    may be left out. *)
Theorem C81_groups_of_derivative :
  forall (O : PyOps) (sp : bool) (ns : exp * list exp) (f : exp) (xs : exp * list exp),
  group_ok ns -> words_ok f -> group_ok xs ->
  List.length (snd ns) = List.length (snd xs) \/ 1 <= List.length (snd ns) <= List.length (snd xs) ->
  settles (fun n => parse_str n (chars "Derivative" ++ flat_map (show_group sp) [ns; (f, []); xs]))
    (do e <- derivative_meaning ns f xs; Ok (VE e)).
Proof. exact groups_of_derivative. Qed.
Print Assumptions C81_groups_of_derivative.

(** Once the function and its arguments are read, other numbers of orders are refused: one order for
    several arguments with TypeError, several orders for one argument with AttributeError, an order
    other than 0 beyond several arguments with IndexError.  Several functions are refused as well. *)
Theorem C81_unequal_groups_of_derivative :
  forall (O : PyOps) (sp : bool) (ns : exp * list exp) (f : exp) (xs : exp * list exp) (h : E) (es : list E) (e : E),
  group_ok ns -> words_ok f -> group_ok xs ->
  meaning f = Ok h -> each (fun x => o_sympify (printed x)) (fst xs :: snd xs) = Ok es -> o_function h es = Ok e ->
  let value := settles (fun n => parse_str n (chars "Derivative" ++ flat_map (show_group sp) [ns; (f, []); xs])) in
  (snd ns = [] -> snd xs <> [] -> value (Err ETypeError)) /\
  (snd ns <> [] -> snd xs = [] -> value (Err EAttributeError)) /\
  (forall os i n, snd ns <> [] -> snd xs <> [] -> each (fun n => do v <- meaning n; o_index v) (fst ns :: snd ns) = Ok os ->
     nth_error os i = Some (S n) -> S (List.length (snd xs)) <= i -> value (Err EIndexError)).
Proof. exact derivative_refused. Qed.
Print Assumptions C81_unequal_groups_of_derivative.
Theorem C81_several_functions :
  forall (O : PyOps) (sp : bool) (ns : exp * list exp) (f g : exp) (fs : list exp) (xs : exp * list exp),
  group_ok ns -> group_ok (f, g :: fs) -> group_ok xs ->
  settles (fun n => parse_str n (chars "Derivative" ++ flat_map (show_group sp) [ns; (f, g :: fs); xs])) (Err EAttributeError).
Proof. exact derivative_two_functions. Qed.
Print Assumptions C81_several_functions.

(** With fewer groups it raises IndexError. *)
Theorem C81_short_derivative :
  forall (O : PyOps) (sp : bool) (g : exp * list exp) (gs : list (exp * list exp)),
  group_ok g -> Forall group_ok gs -> List.length gs < 2 ->
  settles (fun n => parse_str n (chars "Derivative" ++ flat_map (show_group sp) (g :: gs))) (Err EIndexError).
Proof. exact short_derivative. Qed.
Print Assumptions C81_short_derivative.

Example C81_unequal_case :
  let ns := (EWord (chars "2"), [EWord (chars "1"); EWord (chars "3")]) in
  let xs := (EWord (chars "x"), [EAdd (EWord (chars "y")) (EWord (chars "t"))]) in
  group_ok ns /\ words_ok (EWord (chars "f")) /\ group_ok xs
  /\ @meaning TextOps (EWord (chars "f")) = Ok (chars "f")
  /\ (exists es e, each (fun x => @o_sympify TextOps (printed x)) (fst xs :: snd xs) = Ok es /\ @o_function TextOps (chars "f") es = Ok e)
  /\ exists os n, each (fun n => do v <- @meaning TextOps n; o_index v) (fst ns :: snd ns) = Ok os /\ nth_error os 2 = Some (S n) /\ S (List.length (snd xs)) <= 2.
Proof. repeat split; try discriminate; try (repeat constructor; discriminate); [eexists _, _; split; reflexivity|eexists _, _; split; [reflexivity|split; [reflexivity|apply le_n]]]. Qed.
Example C81_case :
  let ns := (EWord (chars "2"), [EWord (chars "1")]) in
  let xs := (EWord (chars "x"), [EAdd (EWord (chars "y")) (EWord (chars "t"))]) in
  group_ok ns /\ words_ok (EWord (chars "f")) /\ group_ok xs
  /\ chars "Derivative" ++ flat_map (show_group true) [ns; (EWord (chars "f"), []); xs] = chars "Derivative[2, 1][f][x, y + t]"
  /\ @derivative_meaning TextOps ns (EWord (chars "f")) xs = Ok (chars "df(x(y + t))/xx(y + t)").
Proof. repeat split; try discriminate; repeat constructor; discriminate. Qed.

(** C82 *)
Theorem C82_blank_text :
  forall (O : PyOps) (s : text), forallb space s = true ->
  settles (fun n => parse_str n s) (Err EAttributeError).
Proof. exact (@blank_text). Qed.
Print Assumptions C82_blank_text.

Example C82_case : forallb space [" "%char; "010"%char; "009"%char] = true.
Proof. reflexivity. Qed.

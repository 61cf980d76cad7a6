(** Vocabulary of the theorems about the reader of Mathematica text: expressions and the
    documents made of them, how they are written, and the tree a writing stands for.
    Definitions only; nothing here refers to the lexer or the parser. *)
From Verif Require Import Base LexM ParseM InterpM.
From Coq Require Import Ascii.
Import List.

(** Expressions: a word (an identifier or a non-negative integer), the four operations,
    the power, the unary minus, a call with one or more arguments, a Greek letter, an
    expression between parentheses, a product written with a space only, and a power with
    spaces around its sign. *)
Inductive exp : Set :=
| EWord (v : text)
| EAdd (a b : exp) | ESub (a b : exp) | EMul (a b : exp) | EDiv (a b : exp)
| EPow (a b : exp) | ENeg (a : exp)
| ECall (f : text) (a : exp) (l : list exp)
| EGreek (v : text)
| EParen (a : exp) | EBy (a b : exp) | EPowS (a b : exp).

(** Classes of characters, by their codes. *)
Definition code_in (a b : nat) (c : ascii) : bool := (a <=? nat_of_ascii c) && (nat_of_ascii c <=? b).
Definition digit : ascii -> bool := code_in 48 57.
Definition letter (c : ascii) : bool := code_in 65 90 c || code_in 97 122 c.
Definition alnum (c : ascii) : bool := digit c || letter c.
(** Spaces, tabs and line feeds; with them what else Python takes for white space; and
    the two quotation marks. *)
Definition white (c : ascii) : bool := code_in 9 10 c || code_in 32 32 c.
Definition space (c : ascii) : bool :=
  code_in 9 13 c || code_in 28 32 c || code_in 133 133 c || code_in 160 160 c.
Definition quotation (c : ascii) : bool := code_in 34 34 c || code_in 39 39 c.

(** A word: letters and digits, at least one. *)
Definition word (v : text) : Prop := v <> [] /\ forallb alnum v = true.

Fixpoint words_ok (e : exp) : Prop :=
  match e with
  | EWord v | EGreek v => word v
  | EAdd a b | ESub a b | EMul a b | EDiv a b | EPow a b | EBy a b | EPowS a b =>
      words_ok a /\ words_ok b
  | ENeg a | EParen a => words_ok a
  | ECall f a l => word f /\ words_ok a /\ fold_right (fun x P => words_ok x /\ P) True l
  end.

(** The writing of an expression where an operand of strength [lvl] is expected: 1 for a
    sum, 2 for a product, 3 for a factor, 4 for the base of a power.  Weaker expressions
    are put in parentheses.  [sp] says whether there are spaces around + and - and after
    the commas. *)
Definition spaced (sp : bool) (t : text) : text :=
  if sp then chars " " ++ t ++ chars " " else t.
Definition comma (sp : bool) : text := if sp then chars ", " else chars ",".
Definition paren (b : bool) (t : text) : text :=
  if b then chars "(" ++ t ++ chars ")" else t.

(** Behind a space a minus sign would be a subtraction. *)
Definition by_lvl (e : exp) : nat := match e with ENeg _ => 4 | _ => 3 end.

Fixpoint show (sp : bool) (lvl : nat) (e : exp) : text :=
  match e with
  | EWord v => v
  | EAdd a b => paren (1 <? lvl) (show sp 1 a ++ spaced sp (chars "+") ++ show sp 2 b)
  | ESub a b => paren (1 <? lvl) (show sp 1 a ++ spaced sp (chars "-") ++ show sp 2 b)
  | EMul a b => paren (2 <? lvl) (show sp 2 a ++ chars "*" ++ show sp 3 b)
  | EDiv a b => paren (2 <? lvl) (show sp 2 a ++ chars "/" ++ show sp 3 b)
  | ENeg a => paren (3 <? lvl) (chars "-" ++ show sp 3 a)
  | EPow a b => paren (3 <? lvl) (show sp 4 a ++ chars "^" ++ show sp 3 b)
  | ECall f a l =>
      f ++ chars "[" ++ show sp 1 a ++ flat_map (fun x => comma sp ++ show sp 1 x) l
        ++ chars "]"
  | EGreek v => chars "\[" ++ v ++ chars "]"
  | EParen a => chars "(" ++ show sp 1 a ++ chars ")"
  | EBy a b => paren (2 <? lvl) (show sp 2 a ++ chars " " ++ show sp (by_lvl b) b)
  | EPowS a b => paren (3 <? lvl) (show sp 4 a ++ chars " ^ " ++ show sp 3 b)
  end.

(** The tree of nodes of an expression. *)
Fixpoint tree (e : exp) : node :=
  match e with
  | EWord v => NExpr v
  | EAdd a b => NAdd (tree a) (tree b)
  | ESub a b => NSub (tree a) (tree b)
  | EMul a b => NMul (tree a) (tree b)
  | EDiv a b => NDiv (tree a) (tree b)
  | EPow a b => NPow (tree a) (tree b)
  | ENeg a => NMinus (tree a)
  | ECall f a l =>
      NFunc f [match l with [] => inl (tree a) | _ :: _ => inr (tree a :: map tree l) end]
  | EGreek v => NGreek (Some v)
  | EParen a => tree a
  | EBy a b => NMul (tree a) (tree b)
  | EPowS a b => NPow (tree a) (tree b)
  end.

(** Documents: expressions, quoted texts, lists (whose members may also be replacement
    rules), associations, and documents with the mark of the exporter behind them.  This is
    what the export functions write.  Every part says whether it is written with spaces;
    for a rule and an association this includes spaces around the arrows. *)
Inductive doc : Set :=
| DExp (sp : bool) (e : exp)
| DStr (s : text)
| DRule (sp spa : bool) (a : exp) (spb : bool) (b : exp)
| DList (sp : bool) (l : list doc)
| DAssoc (sp : bool) (l : list (doc * doc))
| DMark (d : doc).

(** A text that can stand between double quotes: not empty, without double quote, and not
    ending with a single quote. *)
Definition quotable (s : text) : Prop :=
  s <> [] /\ forallb (fun c => negb (c =? dquote)%char) s = true
  /\ last s " "%char <> squote.

(** Well formed documents; [rule] says whether a rule may stand here. *)
Fixpoint doc_ok (rule : bool) (d : doc) : Prop :=
  match d with
  | DExp _ e => words_ok e
  | DStr s => quotable s
  | DRule _ _ a _ b => rule = true /\ words_ok a /\ words_ok b
  | DList _ l => fold_right (fun x P => doc_ok true x /\ P) True l
  | DAssoc _ l =>
      fold_right (fun x P => doc_ok false (fst x) /\ doc_ok false (snd x) /\ P) True l
  | DMark d => doc_ok rule d
  end.

Definition quoted (s : text) : text := dquote :: s ++ [dquote].

Definition sep_by (sep : text) (l : list text) : text :=
  match l with
  | [] => []
  | x :: l' => x ++ flat_map (fun y => sep ++ y) l'
  end.

(** [mk] says whether the marks are written. *)
Fixpoint show_doc (mk : bool) (d : doc) : text :=
  match d with
  | DExp sp e => show sp 1 e
  | DStr s => quoted s
  | DRule sp spa a spb b => show spa 1 a ++ spaced sp (chars "->") ++ show spb 1 b
  | DList sp l => chars "{" ++ sep_by (comma sp) (map (show_doc mk) l) ++ chars "}"
  | DAssoc sp l =>
      chars "<|"
      ++ sep_by (comma sp)
           (map (fun x => show_doc mk (fst x) ++ spaced sp (chars "->")
                          ++ show_doc mk (snd x)) l)
      ++ chars "|>"
  | DMark d => show_doc mk d ++ (if mk then chars "\\ReleaseHold" else [])
  end.

Fixpoint doc_tree (d : doc) : node :=
  match d with
  | DExp _ e => tree e
  | DStr s => NStr (quoted s)
  | DRule _ _ a _ b => NEq (tree a) (tree b)
  | DList _ l => NList (map doc_tree l)
  | DAssoc _ l => NAssoc (map (fun x => doc_tree (fst x)) l)
                         (map (fun x => doc_tree (snd x)) l)
  | DMark d => doc_tree d
  end.

(** A reading with enough fuel: from some amount on the outcome is [r]. *)
Definition settles {X : Type} (f : nat -> res X) (r : res X) : Prop :=
  exists n, forall m, n <= m -> f m = r.

(** A reading that goes on for ever: no amount of fuel is enough. *)
Definition never_ends {X : Type} (f : nat -> res X) : Prop :=
  forall n, f n = Err EFuel.

(** A text parse_str does not change before reading it: no backslash, and its white space
    is single spaces between other characters. [p] says whether a space may not come
    next. *)
Fixpoint single_spaces (p : bool) (l : text) : bool :=
  match l with
  | [] => negb p
  | c :: l' =>
      if space c then (c =? " ")%char && negb p && single_spaces true l'
      else single_spaces false l'
  end.

Definition no_backslash (l : text) : bool :=
  forallb (fun c => negb (c =? backslash)%char) l.

(** A name that can be written between double quotes and read back: quotable, without
    backslash, its white space single spaces (also at the two ends). *)
Definition plain_name (s : text) : Prop :=
  quotable s /\ no_backslash s = true /\ single_spaces false (s ++ [dquote]) = true.

(** Documents whose quoted texts are plain names. *)
Fixpoint names_plain (d : doc) : Prop :=
  match d with
  | DExp _ _ | DRule _ _ _ _ _ => True
  | DStr s => plain_name s
  | DList _ l => fold_right (fun x P => names_plain x /\ P) True l
  | DAssoc _ l =>
      fold_right (fun x P => names_plain (fst x) /\ names_plain (snd x) /\ P) True l
  | DMark d => names_plain d
  end.

(** How a token is written. *)
Definition show_tok (t : token) : text :=
  match t with
  | TExpr v => v
  | TPlus => chars "+" | TMinus => chars "-" | TMultiply => chars "*"
  | TDivide => chars "/" | TPower => chars "^" | TLparen => chars "("
  | TRparen => chars ")" | TLbrace => chars "[" | TRbrace => chars "]"
  | TLcurl => chars "{" | TRcurl => chars "}" | TLassoc => chars "<|"
  | TRassoc => chars "|>" | TArrow => chars "->" | TCommand => chars "\"
  | TWhitespace => chars " " | TString v => v | TComma => chars ","
  end.

Definition show_toks (ts : list token) : text := flat_map show_tok ts.

(** Texts whose characters <, > and | all belong to the three signs <|, |> and ->. *)
Fixpoint no_stray (l : text) : bool :=
  match l with
  | [] => true
  | c :: l' =>
      match l' with
      | d :: l2 =>
          if (c =? "<")%char && (d =? "|")%char || (c =? "|")%char && (d =? ">")%char
             || (c =? "-")%char && (d =? ">")%char
          then no_stray l2
          else negb ((c =? "<")%char || (c =? ">")%char || (c =? "|")%char) && no_stray l'
      | [] => negb ((c =? "<")%char || (c =? ">")%char || (c =? "|")%char)
      end
  end.

(** Digits, at least one. *)
Definition number (v : text) : Prop := v <> [] /\ forallb digit v = true.

(** ** What a text means *)

(** The Greek letters by their Mathematica names: the name with a capital is the small
    letter, and Capital in front of it stands for the capital letter. *)
Definition greek_alphabet : list string :=
  ["alpha"; "beta"; "gamma"; "delta"; "epsilon"; "zeta"; "eta"; "theta"; "iota"; "kappa";
   "lambda"; "mu"; "nu"; "xi"; "omicron"; "pi"; "rho"; "sigma"; "tau"; "upsilon"; "phi";
   "chi"; "psi"; "omega"]%string.
Definition capital (t : text) : text :=
  match t with c :: l => ascii_of_nat (nat_of_ascii c - 32) :: l | [] => [] end.

(** The name of the symbol that stands for a command: other commands keep their name, but
    the sign for a missing symbol is T. *)
Definition greek_name (v : text) : text :=
  match find (fun x => text_eqb v (chars "Capital" ++ capital (chars x))) greek_alphabet with
  | Some x => capital (chars x)
  | None =>
      match find (fun x => text_eqb v (capital (chars x))) greek_alphabet with
      | Some x => chars x
      | None => if text_eqb v (chars "DottedSquare") then chars "T" else v
      end
  end.

(** How Python prints the tree of an expression. *)
Definition printed2 (o : string) (a b : text) : text :=
  chars "(" ++ a ++ chars o ++ b ++ chars ")".
Fixpoint printed (e : exp) : text :=
  match e with
  | EWord v => v
  | EAdd a b => printed2 " + " (printed a) (printed b)
  | ESub a b => printed2 " - " (printed a) (printed b)
  | EMul a b | EBy a b => printed2 " * " (printed a) (printed b)
  | EDiv a b => printed2 " / " (printed a) (printed b)
  | EPow a b | EPowS a b => printed2 " ^ " (printed a) (printed b)
  | ENeg a => chars "-(" ++ printed a ++ chars ")"
  | EParen a => printed a
  | EGreek v => chars "GREEK:" ++ v
  | ECall f a l =>
      chars "(" ++ f
      ++ match l with
         | [] => chars "[" ++ printed a ++ chars "]"
         | _ :: _ => chars "[[" ++ sep_by (chars ", ") (printed a :: map printed l) ++ chars "]]"
         end
      ++ chars ")"
  end.

Section Meaning.
Context {O : PyOps}.

Fixpoint each {A B : Type} (f : A -> res B) (l : list A) : res (list B) :=
  match l with
  | [] => Ok []
  | x :: l' => do y <- f x; do ys <- each f l'; Ok (y :: ys)
  end.

(** The value of an expression: the operations of SymPy applied in the order in which they
    are written.  The arguments of a function are converted from their printed form.  A derivative
    needs three groups of arguments. *)
Fixpoint meaning (e : exp) : res E :=
  match e with
  | EWord v => o_sympify v
  | EAdd a b => do x <- meaning a; do y <- meaning b; o_add x y
  | ESub a b => do x <- meaning a; do y <- meaning b; do z <- o_neg y; o_add x z
  | EMul a b | EBy a b => do x <- meaning a; do y <- meaning b; o_mul x y
  | EDiv a b =>
      do x <- meaning a; do y <- meaning b; do z <- o_pow y o_minus_one; o_mul x z
  | EPow a b | EPowS a b => do x <- meaning a; do y <- meaning b; o_pow x y
  | ENeg a => do x <- meaning a; o_neg x
  | EParen a => meaning a
  | EGreek v => Ok (o_symbol (greek_name v))
  | ECall f a l =>
      if text_eqb f (chars "Derivative")
      then Err EIndexError
      else do es <- each (fun x => o_sympify (printed x)) (a :: l); o_apply f es
  end.

(** The value of an association: a dictionary, where a key written twice keeps its first
    place and has its last value; or, if one of the keys cannot be a key of a dictionary,
    the pair of the list of the keys and the list of the values. *)
Definition may_be_key (a : val) : bool :=
  match a with VE _ | VS _ => true | VL _ | VD _ | VT _ _ => false end.
Definition equal_keys (a b : val) : bool :=
  match a, b with
  | VE x, VE y => o_same x y
  | VS s, VS t => text_eqb s t
  | _, _ => false
  end.
Definition has_key (k : val) (ks : list val) : bool := existsb (equal_keys k) ks.
Definition keys_once (ks : list val) : list val :=
  fold_left (fun acc k => if has_key k acc then acc else acc ++ [k]) ks [].
Definition last_value (k : val) (l : list (val * val)) : option val :=
  option_map snd (find (fun p => equal_keys k (fst p)) (rev l)).
Definition dict_of (l : list (val * val)) : list (val * val) :=
  flat_map (fun k => match last_value k l with Some v => [(k, v)] | None => [] end)
           (keys_once (map fst l)).

Fixpoint every {A : Type} (l : list (option A)) : option (list A) :=
  match l with
  | [] => Some []
  | Some x :: l' => option_map (cons x) (every l')
  | None :: _ => None
  end.

(** The value of a document, if it has one. *)
Definition known {A : Type} (r : res A) : option A :=
  match r with Ok x => Some x | Err _ => None end.
Fixpoint doc_value (d : doc) : option val :=
  match d with
  | DExp _ e => option_map VE (known (meaning e))
  | DStr s => Some (VS s)
  | DRule _ _ a _ b =>
      option_map VE (known (do x <- meaning a; do y <- meaning b; o_eq x y))
  | DList _ l => option_map VL (every (map doc_value l))
  | DMark d => doc_value d
  | DAssoc _ l =>
      match every (map (fun x => doc_value (fst x)) l),
            every (map (fun x => doc_value (snd x)) l) with
      | Some ks, Some vs =>
          Some (if forallb may_be_key ks then VD (dict_of (combine ks vs)) else VT ks vs)
      | _, _ => None
      end
  end.

End Meaning.

(** ** Names with Greek letters *)
Inductive piece : Set := PText (t : text) | PSmall (x : string) | PCapital (x : string) | PBlank.
Definition piece_ok (p : piece) : Prop :=
  match p with
  | PText t => no_backslash t = true /\ forallb (fun c => negb (c =? dquote)%char) t = true
  | PSmall x | PCapital x => In x greek_alphabet
  | PBlank => True
  end.
(** How a piece is written. *)
Definition piece_text (p : piece) : text :=
  match p with
  | PText t => t
  | PSmall x => chars "\[" ++ capital (chars x) ++ chars "]"
  | PCapital x => chars "\[Capital" ++ capital (chars x) ++ chars "]"
  | PBlank => chars "\[DottedSquare]"
  end.
(** The name it stands for. *)
Definition piece_name (p : piece) : text :=
  match p with
  | PText t => t
  | PSmall x => chars x
  | PCapital x => capital (chars x)
  | PBlank => []
  end.

(** ** Calls with several groups of arguments *)
Definition show_group (sp : bool) (g : exp * list exp) : text :=
  chars "[" ++ sep_by (comma sp) (map (show sp 1) (fst g :: snd g)) ++ chars "]".
Definition group_ok (g : exp * list exp) : Prop := words_ok (fst g) /\ Forall words_ok (snd g).
(** A group as the parser keeps it: one node or a list of nodes. *)
Definition group_arg (g : exp * list exp) : node + list node :=
  match snd g with
  | [] => inl (tree (fst g))
  | _ :: _ => inr (tree (fst g) :: map tree (snd g))
  end.
Section Derivatives.
Context {O : PyOps}.
(** Derivative[n1, ..., nk][f][x1, ..., xk]: the function f of x1, ..., xk differentiated n1 times by
    x1, and so on. *)
Definition derivative_meaning (ns : exp * list exp) (f : exp) (xs : exp * list exp) : res E :=
  do h <- meaning f;
  do es <- each (fun x => o_sympify (printed x)) (fst xs :: snd xs);
  do e <- o_function h es;
  do os <- each (fun n => do v <- meaning n; o_index v) (fst ns :: snd ns);
  o_diff e (flat_map (fun p => repeat (fst p) (snd p)) (combine es os)).
End Derivatives.

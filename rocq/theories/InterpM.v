(** Model of /repo/src/PyOGRe/MathematicaParser/Interpreter.py and of the __repr__
    methods of Nodes.py that it relies on.  Definitions only.

    SymPy and ast.literal_eval are outside the repository: the calls made to them are
    the fields of the class [PyOps]. *)
From Verif Require Import Base LexM ParseM.
From Coq Require Import Ascii.
Import List.

(** [o_sympify] is sym.sympify on a text, [o_apply] the application of the SymPy function
    a name stands for (known_functions, Interpreter.py 108-129, or sym.Function),
    [o_function] is sym.Function(x) of the arguments, [o_diff] sym.diff(f, *symbols), [o_index] the number of
    turns of range(x), 0 for a negative number; [o_literal] is ast.literal_eval on a text that
    is not a plain quoted text, [o_same] the equality of dictionary keys. *)
Class PyOps : Type := {
  E : Type;
  o_sympify : text -> res E;
  o_add : E -> E -> res E;
  o_mul : E -> E -> res E;
  o_pow : E -> E -> res E;
  o_neg : E -> res E;
  o_eq : E -> E -> res E;
  o_minus_one : E;
  o_symbol : text -> E;
  o_apply : text -> list E -> res E;
  o_function : E -> list E -> res E;
  o_diff : E -> list E -> res E;
  o_index : E -> res nat;
  o_literal : text -> res text;
  o_same : E -> E -> bool
}.

Definition text_eqb (a b : text) : bool := if list_eq_dec ascii_dec a b then true else false.

(** str.replace(pat, new): from the left, without overlaps, for a non-empty [pat]. *)
Fixpoint prefix_of (p l : text) : bool :=
  match p, l with
  | [], _ => true
  | a :: p', b :: l' => (a =? b)%char && prefix_of p' l'
  | _ :: _, [] => false
  end.

Fixpoint replace_loop (fuel : nat) (pat new l : text) : text :=
  match fuel with
  | O => l
  | S fuel =>
      match l with
      | [] => []
      | c :: l' =>
          if prefix_of pat l then new ++ replace_loop fuel pat new (skipn (List.length pat) l)
          else c :: replace_loop fuel pat new l'
      end
  end.

Definition replace (pat new l : text) : text := replace_loop (List.length l) pat new l.

(** str.isspace for one character of code below 256. *)
Definition is_space (c : ascii) : bool :=
  let n := nat_of_ascii c in
  (9 <=? n) && (n <=? 13) || (28 <=? n) && (n <=? 32) || (n =? 133) || (n =? 160).

(** str.split(): the maximal runs of characters that are not white space. *)
Fixpoint words_loop (w l : text) : list text :=
  match l with
  | [] => match w with [] => [] | _ :: _ => [w] end
  | c :: l' =>
      if is_space c
      then match w with [] => words_loop [] l' | _ :: _ => w :: words_loop [] l' end
      else words_loop (w ++ [c]) l'
  end.

(** " ".join(words). *)
Fixpoint join_words (ws : list text) : text :=
  match ws with
  | [] => []
  | [w] => w
  | w :: ws' => w ++ " "%char :: join_words ws'
  end.

(** Interpreter.py 147-148. *)
Definition normalise (l : text) : text :=
  join_words (words_loop [] (replace (chars "\\ReleaseHold") [] l)).

(** Interpreter.py 4-54, greek_letters. *)
Definition greek_names : list string :=
  ["Alpha"; "Beta"; "Gamma"; "Delta"; "Epsilon"; "Zeta"; "Eta"; "Theta"; "Iota";
   "Kappa"; "Lambda"; "Mu"; "Nu"; "Xi"; "Omicron"; "Pi"; "Rho"; "Sigma"; "Tau";
   "Upsilon"; "Phi"; "Chi"; "Psi"; "Omega"]%string.
Definition greek_small : list string :=
  ["alpha"; "beta"; "gamma"; "delta"; "epsilon"; "zeta"; "eta"; "theta"; "iota";
   "kappa"; "lambda"; "mu"; "nu"; "xi"; "omicron"; "pi"; "rho"; "sigma"; "tau";
   "upsilon"; "phi"; "chi"; "psi"; "omega"]%string.
Definition greek_letters : list (string * string) :=
  map (fun s => ("Capital" ++ s, s)%string) greek_names
  ++ combine greek_names greek_small
  ++ [("DottedSquare", "T")]%string.

(** Interpreter.py 56-106, greek_commands: the same names between a backslash with an
    opening bracket and a closing bracket; the last one becomes the empty text. *)
Definition greek_commands : list (string * string) :=
  map (fun p => ("\[" ++ fst p ++ "]",
                 if String.eqb (fst p) "DottedSquare" then "" else snd p)%string)
      greek_letters.

(** Interpreter.py 132-138. *)
Definition replace_greek_commands (l : text) : text :=
  fold_left (fun l p => replace (chars (fst p)) (chars (snd p)) l) greek_commands l.

(** Nodes.py: __repr__ of the nodes; a list is printed by Python between brackets and
    with a comma and a space between its members. *)
Definition py_list (l : list text) : text :=
  chars "[" ++ (fix go l := match l with
                            | [] => []
                            | [x] => x
                            | x :: l' => x ++ chars ", " ++ go l'
                            end) l ++ chars "]".

Fixpoint repr (a : node) : text :=
  match a with
  | NNone => chars "None"
  | NAdd a b => chars "(" ++ repr a ++ chars " + " ++ repr b ++ chars ")"
  | NSub a b => chars "(" ++ repr a ++ chars " - " ++ repr b ++ chars ")"
  | NMul a b => chars "(" ++ repr a ++ chars " * " ++ repr b ++ chars ")"
  | NDiv a b => chars "(" ++ repr a ++ chars " / " ++ repr b ++ chars ")"
  | NPow a b => chars "(" ++ repr a ++ chars " ^ " ++ repr b ++ chars ")"
  | NPlus a => chars "+(" ++ repr a ++ chars ")"
  | NMinus a => chars "-(" ++ repr a ++ chars ")"
  | NStr v => chars "(" ++ v ++ chars ")"
  | NExpr v => v
  | NEq a b => repr a ++ chars " = " ++ repr b
  | NList l => py_list (map repr l)
  | NListOf a => repr a
  | NAssoc ks vs => chars "(" ++ py_list (map repr ks) ++ chars ": "
                    ++ py_list (map repr vs) ++ chars ")"
  | NGreek v => chars "GREEK:" ++ match v with Some v => v | None => chars "None" end
  | NFunc f args =>
      chars "(" ++ f ++ py_list (map (fun x => match x with
                                              | inl a => repr a
                                              | inr l => py_list (map repr l)
                                              end) args) ++ chars ")"
  end.

(** ast.literal_eval on the text of a token: a text between two equal quotes with no such
    quote, no backslash and no line break inside is the text inside. *)
Definition plain_quoted (v : text) : option text :=
  match v with
  | q :: l =>
      if is_quote q
      then match rev l with
           | q' :: r =>
               if (q =? q')%char
                  && forallb (fun c => negb ((c =? q)%char || (c =? backslash)%char
                                             || (c =? "010")%char || (c =? "013")%char)) r
               then Some (rev r) else None
           | [] => None
           end
      else None
  | [] => None
  end.

Section Interp.
Context {O : PyOps}.

Definition literal_eval (v : text) : res text :=
  match plain_quoted v with Some s => Ok s | None => o_literal v end.

(** The values visit returns: a SymPy expression, a str, a list, a dict, and the pair of
    lists of Interpreter.py 244. *)
Inductive val : Type :=
| VE (e : E)
| VS (t : text)
| VL (l : list val)
| VD (l : list (val * val))
| VT (keys values : list val).

(** SymPy's Add, Mul, Pow and Eq sympify their arguments strictly: a str, a list, a dict
    or a tuple of lists raises SympifyError. *)
Definition expr_arg (v : val) : res E :=
  match v with VE e => Ok e | _ => Err ESymPy end.

(** Unary minus of a str, a list, a dict or a tuple raises TypeError. *)
Definition py_neg (v : val) : res val :=
  match v with VE e => do e' <- o_neg e; Ok (VE e') | _ => Err ETypeError end.

Definition op2 (f : E -> E -> res E) (a b : val) : res val :=
  do x <- expr_arg a; do y <- expr_arg b; do z <- f x y; Ok (VE z).

(** sym.sympify of the value of a node (lines 198 and 204); of a container it is not
    modelled. *)
Definition sympify_val (v : val) : res val :=
  match v with
  | VE e => Ok (VE e)
  | VS t => do e <- o_sympify t; Ok (VE e)
  | _ => Err ENotImplemented
  end.

(** The equality and the hashing of dictionary keys: a list, a dict and a tuple of lists
    are not hashable. *)
Definition key_same (a b : val) : bool :=
  match a, b with
  | VE x, VE y => o_same x y
  | VS s, VS t => text_eqb s t
  | _, _ => false
  end.
Definition hashable (a : val) : bool :=
  match a with VE _ | VS _ => true | _ => false end.

Fixpoint dict_set (k v : val) (d : list (val * val)) : list (val * val) :=
  match d with
  | [] => [(k, v)]
  | (k', v') :: d' => if key_same k' k then (k', v) :: d' else (k', v') :: dict_set k v d'
  end.

Fixpoint rmap {A B : Type} (f : A -> res B) (l : list A) : res (list B) :=
  match l with
  | [] => Ok []
  | x :: l' => do y <- f x; do ys <- rmap f l'; Ok (y :: ys)
  end.

(** The dictionary of Interpreter.py 239-242 from the values of its keys and values, in
    the order of evaluation. *)
Fixpoint build_dict (l : list (res val * res val)) (d : list (val * val)) : res val :=
  match l with
  | [] => Ok (VD d)
  | (k, v) :: l' =>
      do k <- k; do v <- v;
      if hashable k then build_dict l' (dict_set k v d) else Err ETypeError
  end.

Fixpoint rall {A : Type} (l : list (res A)) : res (list A) :=
  match l with
  | [] => Ok []
  | x :: l' => do y <- x; do ys <- rall l'; Ok (y :: ys)
  end.

(** The arguments of a function, lines 279-286: sym.sympify of a node, which is not a
    SymPy object, converts its str() and that is its __repr__. *)
Definition sympify_args (args : list (node + list node)) : res (list E) :=
  match args with
  | [] => Err EIndexError
  | inl a :: _ => do e <- o_sympify (repr a); Ok [e]
  | inr l :: _ => rmap (fun a => o_sympify (repr a)) l
  end.

(** Interpreter.py 259-278.  [vs] are the values of the nodes of [args]; of a list visit raises
    AttributeError.  The function is made from the value of the second group: an expression, or a
    str, which is taken for the symbol of that name.  A list of orders that is not a list raises
    TypeError. *)
Definition order_of (r : res val) : res nat :=
  do v <- r; match v with VE e => o_index e | _ => Err ETypeError end.
Definition function_of (g : res val + list (res val)) : res E :=
  match g with
  | inr _ => Err EAttributeError
  | inl r => do v <- r; match v with VE e => Ok e | VS t => Ok (o_symbol t) | _ => Err ETypeError end
  end.
(* node.args[2][index] for each index, as often as its order says *)
Fixpoint by_orders (l : list node) (i : nat) (os : list (res val)) : res (list node) :=
  match os with
  | [] => Ok []
  | o :: os' =>
      do n <- order_of o;
      do a <- match n with
              | 0 => Ok []
              | S _ => match nth_error l i with Some a => Ok (repeat a n) | None => Err EIndexError end
              end;
      do b <- by_orders l (S i) os'; Ok (a ++ b)
  end.
Definition derivative_value (args : list (node + list node)) (vs : list (res val + list (res val))) : res E :=
  match nth_error args 2, nth_error vs 1, nth_error vs 0 with
  | Some (inr l), Some f, Some o =>
      do h <- function_of f;
      do xs <- rmap (fun a => o_sympify (repr a)) l;
      do e <- o_function h xs;
      match o with
      | inl _ => Err ETypeError
      | inr os => do ys <- by_orders l 0 os; do ys <- rmap (fun a => o_sympify (repr a)) ys; o_diff e ys
      end
  | Some (inl a), Some f, Some o =>
      do h <- function_of f;
      do x <- o_sympify (repr a);
      do e <- o_function h [x];
      match o with inl o => do n <- order_of o; o_diff e (repeat x n) | inr _ => Err EAttributeError end
  | _, _, _ => Err EIndexError
  end.

(** Interpreter.py 152-286: visit. *)
Fixpoint visit (a : node) : res val :=
  match a with
  | NNone => Err EAttributeError
  | NAdd a b => do x <- visit a; do y <- visit b; op2 o_add x y
  | NSub a b => do x <- visit a; do y <- visit b; do z <- py_neg y; op2 o_add x z
  | NMul a b => do x <- visit a; do y <- visit b; op2 o_mul x y
  | NDiv a b =>
      do x <- visit a; do y <- visit b; do z <- op2 o_pow y (VE o_minus_one);
      op2 o_mul x z
  | NPow a b => do x <- visit a; do y <- visit b; op2 o_pow x y
  | NPlus a => do x <- visit a; sympify_val x
  | NMinus a => do x <- visit a; do y <- sympify_val x; py_neg y
  | NStr v => do s <- literal_eval (replace_greek_commands v); Ok (VS s)
  | NExpr v => do e <- o_sympify v; Ok (VE e)
  | NEq a b => do x <- visit a; do y <- visit b; op2 o_eq x y
  | NList l => do vs <- rall (map visit l); Ok (VL vs)
  | NListOf _ => Err ETypeError
  | NAssoc ks vs =>
      let kv := map visit ks in
      let vv := map visit vs in
      match build_dict (combine kv vv) [] with
      | Err ETypeError => do k <- rall kv; do v <- rall vv; Ok (VT k v)
      | r => r
      end
  | NGreek None => Err ETypeError
  | NGreek (Some v) =>
      match find (fun p => text_eqb (chars (fst p)) v) greek_letters with
      | Some p => Ok (VE (o_symbol (chars (snd p))))
      | None => Ok (VE (o_symbol v))
      end
  | NFunc f args =>
      if text_eqb f (chars "Derivative") then
        do e <- derivative_value args
                  (map (fun g => match g with inl b => inl (visit b) | inr l => inr (map visit l) end) args);
        Ok (VE e)
      else do es <- sympify_args args; do e <- o_apply f es; Ok (VE e)
  end.

(** Interpreter.py 141-149: parse_str; the fuel is that of the parser. *)
Definition parse_str (fuel : nat) (s : text) : res val :=
  do a <- parse fuel (lex (normalise s)); visit a.

End Interp.

(** Model of /repo/src/PyOGRe/MathematicaParser/MathematicaParser.py with the node
    classes of /repo/src/PyOGRe/MathematicaParser/Nodes.py.  Definitions only.

    Simplifications: the tokens current, next, nnext and the generator behind them are
    one list whose first three elements they are, as in LexM.v; None is the end of the
    list.  The methods call one another and loop without a bound, so each method and each
    loop takes a fuel that every call and every turn reduces by one, and gives [EFuel]
    when it is used up; whether a fuel suffices is a matter of theorems. *)
From Verif Require Import Base LexM.
Import List.

(** Nodes.py 5-170.  [NNone] is the value None, which the methods return for some inputs
    and put into other nodes.  ListNode.array is a list of nodes ([NList]) or, from
    MathematicaParser.py 76, a ListNode ([NListOf]).  FunctionNode.args is a list whose
    members are a node or a list of nodes.  The value of a GreekNode is the value of any
    token, None for most. *)
Inductive node : Set :=
| NNone
| NAdd (a b : node) | NSub (a b : node) | NMul (a b : node) | NDiv (a b : node)
| NPow (a b : node) | NPlus (a : node) | NMinus (a : node)
| NStr (v : text) | NExpr (v : text) | NEq (a b : node)
| NList (l : list node) | NListOf (a : node)
| NAssoc (keys values : list node)
| NGreek (v : option text)
| NFunc (f : text) (args : list (node + list node)).

Notation stream := (list (res token)).

(** An element that is an exception is raised by the call of next() that reaches it. *)
Definition raised (t : option (res token)) : option exn :=
  match t with Some (Err e) => Some e | _ => None end.

(** MathematicaParser.py 28-37: advance.  The new nnext is the third element. *)
Definition advance (s : stream) : res stream :=
  let s' := tl s in
  match raised (nth_error s' 2) with Some e => Err e | None => Ok s' end.

(** The token at a position: None past the end. *)
Definition tok (i : nat) (s : stream) : option token :=
  match nth_error s i with Some (Ok t) => Some t | _ => None end.

(** [self.current.type], which raises AttributeError when current is None. *)
Definition cur (s : stream) : res token :=
  match tok 0 s with Some t => Ok t | None => Err EAttributeError end.

(** [while self.current.type == WHITESPACE: self.advance()]. *)
Fixpoint skip_white (s : stream) : res stream :=
  match s with
  | Ok TWhitespace :: s' => do _ <- advance s; skip_white s'
  | _ => do _ <- cur s; Ok s
  end.

(** TokenType.value of the current token, MathematicaParser.py 209 and 242. *)
Definition token_value (t : option token) : option text :=
  match t with Some (TExpr v) | Some (TString v) => Some v | _ => None end.

(** MathematicaParser.py 105-111: the tokens before which white space multiplies. *)
Definition starts_factor (t : option token) : bool :=
  match t with
  | Some (TExpr _) | Some TLparen | Some TLassoc | Some TLbrace | Some TCommand => true
  | _ => false
  end.

(** [if result], MathematicaParser.py 155 and 236: every node is true, None is false. *)
Definition truthy (a : node) : bool := match a with NNone => false | _ => true end.

(** MathematicaParser.py 53-256.  Each method returns its result with the tokens left. *)
Fixpoint p_expr (fuel : nat) (assoc : bool) (s : stream) {struct fuel}
  : res (node * stream) :=
  match fuel with
  | O => Err EFuel
  | S fuel => do (r, s) <- p_term fuel s; p_expr_loop fuel assoc r s
  end

(* The loop of expr, 59-82. *)
with p_expr_loop (fuel : nat) (assoc : bool) (r : node) (s : stream) {struct fuel}
  : res (node * stream) :=
  match fuel with
  | O => Err EFuel
  | S fuel =>
      match tok 0 s with
      | Some TPlus =>
          do s <- advance s; do (b, s) <- p_term fuel s;
          p_expr_loop fuel assoc (NAdd r b) s
      | Some TMinus =>
          do s <- advance s; do (b, s) <- p_term fuel s;
          p_expr_loop fuel assoc (NSub r b) s
      | Some TWhitespace => do s <- advance s; p_expr_loop fuel assoc r s
      | Some TLcurl =>
          do s <- advance s; do (b, s) <- p_list fuel [] s;
          p_expr_loop fuel assoc (NListOf b) s
      | Some TLassoc =>
          do s <- advance s; do (b, s) <- p_assoc fuel [] [] s;
          p_expr_loop fuel assoc b s
      | Some TArrow =>
          if assoc then Ok (r, s)
          else do s <- advance s; do (b, s) <- p_expr fuel false s;
               p_expr_loop fuel assoc (NEq r b) s
      | _ => Ok (r, s)
      end
  end

(* term, 86-119. *)
with p_term (fuel : nat) (s : stream) {struct fuel} : res (node * stream) :=
  match fuel with
  | O => Err EFuel
  | S fuel =>
      do s <- skip_white s; do (r, s) <- p_factor fuel s; p_term_loop fuel r s
  end

(* The loop of term, 94-117. *)
with p_term_loop (fuel : nat) (r : node) (s : stream) {struct fuel}
  : res (node * stream) :=
  match fuel with
  | O => Err EFuel
  | S fuel =>
      match tok 0 s with
      | Some TMultiply =>
          do s <- advance s; do (b, s) <- p_factor fuel s;
          p_term_loop fuel (NMul r b) s
      | Some TDivide =>
          do s <- advance s; do (b, s) <- p_factor fuel s;
          p_term_loop fuel (NDiv r b) s
      | Some TWhitespace =>
          if starts_factor (tok 1 s)
          then do s <- advance s; do (b, s) <- p_factor fuel s;
               p_term_loop fuel (NMul r b) s
          else do s <- advance s; p_term_loop fuel r s
      | _ => Ok (r, s)
      end
  end

(* list, 121-134; [acc] is result. *)
with p_list (fuel : nat) (acc : list node) (s : stream) {struct fuel}
  : res (node * stream) :=
  match fuel with
  | O => Err EFuel
  | S fuel =>
      do t <- cur s;
      match t with
      | TRcurl => Ok (NList acc, s)
      | _ =>
          do s <- skip_white s;
          do (a, s) <- p_expr fuel false s;
          do t2 <- cur s;
          do s <- match t2 with TComma => advance s | _ => Ok s end;
          p_list fuel (acc ++ [a]) s
      end
  end

(* assoc, 136-163. *)
with p_assoc (fuel : nat) (keys values : list node) (s : stream) {struct fuel}
  : res (node * stream) :=
  match fuel with
  | O => Err EFuel
  | S fuel =>
      do t <- cur s;
      match t with
      | TRassoc => Ok (NAssoc keys values, s)
      | _ =>
          do s <- skip_white s;
          do (k, s) <- p_expr fuel true s;
          do s <- skip_white s;
          do t2 <- cur s;
          do (v, s) <- match t2 with
                       | TArrow =>
                           do s <- advance s; do s <- skip_white s; p_expr fuel true s
                       | _ => Ok (NNone, s)
                       end;
          if truthy k && truthy v
          then do t3 <- cur s;
               do s <- match t3 with TComma => advance s | _ => Ok s end;
               p_assoc fuel (keys ++ [k]) (values ++ [v]) s
          else Err EException
      end
  end

(* factor, 165-236: the branches on the token after the white space, then the two
   tests for a power. *)
with p_factor (fuel : nat) (s : stream) {struct fuel} : res (node * stream) :=
  match fuel with
  | O => Err EFuel
  | S fuel =>
      do s <- skip_white s;
      do t <- cur s;
      do (r, s) <-
        match t with
        | TString v => do s <- advance s; Ok (NStr v, s)
        | TLparen =>
            do s <- advance s; do (a, s) <- p_expr fuel false s; do t2 <- cur s;
            match t2 with
            | TRparen => do s <- advance s; Ok (a, s)
            | _ => Err EException
            end
        | TLcurl =>
            do s <- advance s; do (a, s) <- p_list fuel [] s; do t2 <- cur s;
            match t2 with
            | TRcurl => do s <- advance s; Ok (a, s)
            | _ => Err EException
            end
        | TLassoc =>
            do s <- advance s; do (a, s) <- p_assoc fuel [] [] s; do t2 <- cur s;
            match t2 with
            | TRassoc => do s <- advance s; Ok (a, s)
            | _ => Err EException
            end
        | TCommand =>
            do s <- advance s;
            do t2 <- cur s;
            match t2 with
            | TLbrace =>
                match tok 2 s with
                | None => Err EAttributeError
                | Some TRbrace =>
                    do s <- advance s;
                    let v := token_value (tok 0 s) in
                    do s <- advance s; do s <- advance s; Ok (NGreek v, s)
                | Some _ => Ok (NNone, s)
                end
            | _ => Ok (NNone, s)
            end
        | TExpr v =>
            match tok 1 s with
            | Some TLbrace => do s <- advance s; p_func fuel v [] s
            | _ => do s <- advance s; Ok (NExpr v, s)
            end
        | TPlus =>
            do s <- advance s; do (a, s) <- p_factor fuel s; Ok (NPlus a, s)
        | TMinus =>
            do s <- advance s; do (a, s) <- p_factor fuel s; Ok (NMinus a, s)
        | _ => Ok (NNone, s)
        end;
      do (r, s) <-
        match tok 0 s with
        | Some TPower =>
            do s <- advance s; do (b, s) <- p_factor fuel s; Ok (NPow r b, s)
        | _ => Ok (r, s)
        end;
      match tok 0 s, tok 1 s with
      | Some TWhitespace, Some TPower =>
          do s <- advance s; do s <- advance s;
          do (b, s) <- p_factor fuel s; Ok (NPow r b, s)
      | _, _ => Ok (r, s)
      end
  end

(* The loop of func, 245-254. *)
with p_func (fuel : nat) (f : text) (args : list (node + list node)) (s : stream)
  {struct fuel} : res (node * stream) :=
  match fuel with
  | O => Err EFuel
  | S fuel =>
      match tok 0 s with
      | Some TLbrace =>
          do s <- advance s;
          do (a, s) <- p_expr fuel false s;
          do (arg, s) <- p_args fuel (inl a) s;
          do t <- cur s;
          do s <- match t with TRbrace => advance s | _ => Ok s end;
          p_func fuel f (args ++ [arg]) s
      | _ => Ok (NFunc f args, s)
      end
  end

(* The inner loop of func, 248-251. *)
with p_args (fuel : nat) (arg : node + list node) (s : stream) {struct fuel}
  : res ((node + list node) * stream) :=
  match fuel with
  | O => Err EFuel
  | S fuel =>
      do t <- cur s;
      match t with
      | TComma =>
          do s <- advance s;
          do (b, s) <- p_expr fuel false s;
          p_args fuel (inr (match arg with inl a => [a; b] | inr l => l ++ [b] end)) s
      | _ => Ok (arg, s)
      end
  end.

(** MathematicaParser.py 13-26: __init__ takes three tokens. *)
Definition start_parser (s : stream) : res stream :=
  match raised (nth_error s 0), raised (nth_error s 1), raised (nth_error s 2) with
  | Some e, _, _ | None, Some e, _ | None, None, Some e => Err e
  | None, None, None => Ok s
  end.

(** MathematicaParser.py 39-51: parse. *)
Definition parse (fuel : nat) (s : stream) : res node :=
  do s <- start_parser s;
  match s with
  | [] => Ok NNone
  | _ :: _ =>
      do (r, s) <- p_expr fuel false s;
      match s with [] => Ok r | _ :: _ => Err EException end
  end.

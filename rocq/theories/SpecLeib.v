(** Specification vocabulary for the covariant derivative of the result of a formula.
    Definitions only. *)
From Verif Require Export SpecDeriv SpecHead SpecForm.
Local Open Scope nat_scope.

Section SpecLeib.
Context {A : AlgOps}.
Variables (conf : oid -> list Z) (n : nat) (xs : list string) (g gi : nat -> nat -> K).
(** The covariant components of every tensor. *)
Variable T : oid -> list nat -> K.

(** The covariant components of nabla_k T for every tensor. *)
Definition nabla_tensor (k : nat) (t : oid) (idx : list nat) : K :=
  covariant_of n (cx xs) (Gam n xs g gi) (repeat (-1)%Z (length (conf t))) (T t) k idx.

(** The derivative of a formula without derivatives by the rules for sums and products: in every
    term one tensor, or one factor, is replaced by its derivative. *)
Fixpoint nabla_value (p : formula) (k : nat) (f : string -> nat) : K :=
  match p with
  | FTensor t s => value conf n xs g gi (nabla_tensor k) (FTensor t s) f
  | FAdd x y => kadd (nabla_value x k f) (nabla_value y k f)
  | FSub x y => ksub (nabla_value x k f) (nabla_value y k f)
  | FNeg x => kopp (nabla_value x k f)
  | FScale a x | FOver a x => kadd (kmul (kdiff (cx xs k) a) (value conf n xs g gi T x f)) (kmul a (nabla_value x k f))
  | FMul x y =>
    contracted n gi (common (free_syms x) (free_syms y))
      (fun f1 f2 => kadd (kmul (nabla_value x k f1) (value conf n xs g gi T y f2))
                         (kmul (value conf n xs g gi T x f1) (nabla_value y k f2))) f f
  | FGrad _ _ => k0
  end.

(** Its components, the index of the derivative in front, the others in the configuration [i]. *)
Definition nabla_components (p : formula) (s : list string) (i : list Z) (idx : list nat) : K :=
  act n (map (conv g gi (-1)%Z) i) (fun ks => nabla_value p (nth 0 idx 0) (assign s ks (fun _ => 0))) (tl idx).

(** The divergence over the index [q] of the components in the default configuration: nabla_k of
    the index k if it is an upper one, g^kl nabla_k of the index l if it is a lower one. *)
Definition nabla_divergence (p : formula) (q : nat) (idx : list nat) : K :=
  let i := free_cfg conf p in let nabla k ks := nabla_components p (free_syms p) i (k :: ks) in
  if (nth q i 0 =? 1)%Z then nsum n (fun k => nabla k (inserted q k idx))
  else nsum n (fun k => nsum n (fun l => kmul (gi k l) (nabla k (inserted q l idx)))).
End SpecLeib.

(** A component algebra with the functions of spherical coordinates: polynomials in symbols, where
    "1/r", "sin", "1/sin" and "cos" stand for 1/r, sin(theta), 1/sin(theta) and cos(theta),
    "sin(phi)" and "cos(phi)" for themselves, "1/f" for 1/(1 - 2 M/r), "1/w" for 1/(1 - k r^2), and "a", "a'", "a''", ... for a function of t, its
    inverse "1/a" and its derivatives.  It carries the concrete metrics of Defaults.py. *)
From Coq Require Import QArith Qcanon Ascii.
From Verif Require Import Alg Inst InstExp.
Local Open Scope nat_scope.

Notation pz z := (PC (inject_Z z)).
Definition v_r : pexp := PV "r".
Definition v_ri : pexp := PV "1/r".
Definition v_s : pexp := PV "sin".
Definition v_si : pexp := PV "1/sin".
Definition v_c : pexp := PV "cos".
Definition v_sp : pexp := PV "sin(phi)".
Definition v_cp : pexp := PV "cos(phi)".
Definition v_M : pexp := PV "M".
Definition v_k : pexp := PV "k".
Definition v_fi : pexp := PV "1/f".
Definition v_wi : pexp := PV "1/w".
Definition v_a : pexp := PV "a".
Definition v_ai : pexp := PV "1/a".
Definition v_f : pexp := PSub (pz 1) (PMul (pz 2) (PMul v_M v_ri)).
Definition v_w : pexp := PSub (pz 1) (PMul v_k (PMul v_r v_r)).

Fixpoint quotes (s : string) : bool :=
  match s with
  | ""%string => true
  | String "'"%char s' => quotes s'
  | _ => false
  end.
Definition isa (u : string) : bool := match u with String "a"%char s => quotes s | _ => false end.

(** The relations *)
Record rels (R : calg) (v : string -> car R) : Prop := {
  rel_r : cmul R (v "r"%string) (v "1/r"%string) = c1 R;
  rel_s : cmul R (v "sin"%string) (v "1/sin"%string) = c1 R;
  rel_c : cmul R (v "cos"%string) (v "cos"%string) = csub R (c1 R) (cmul R (v "sin"%string) (v "sin"%string));
  rel_f : cmul R (peval R v v_f) (v "1/f"%string) = c1 R;
  rel_w : cmul R (peval R v v_w) (v "1/w"%string) = c1 R;
  rel_a : cmul R (v "a"%string) (v "1/a"%string) = c1 R;
  rel_p : cmul R (v "cos(phi)"%string) (v "cos(phi)"%string) = csub R (c1 R) (cmul R (v "sin(phi)"%string) (v "sin(phi)"%string))
}.
Definition seq_ (a b : pexp) : Prop := forall R v, rels R v -> peval R v a = peval R v b.

(** The derivatives *)
Definition on (s x : string) (e : pexp) : pexp := if String.eqb s x then e else PC 0%Q.
Definition dgen (s u : string) : pexp :=
  if isa u then on s "t" (PV (u ++ "'"))
  else if String.eqb u "sin(phi)" then on s "phi" v_cp
  else if String.eqb u "cos(phi)" then on s "phi" (POpp v_sp)
  else if String.eqb u "1/r" then on s "r" (POpp (PMul v_ri v_ri))
  else if String.eqb u "sin" then on s "theta" v_c
  else if String.eqb u "1/sin" then on s "theta" (POpp (PMul v_c (PMul v_si v_si)))
  else if String.eqb u "cos" then on s "theta" (POpp v_s)
  else if String.eqb u "1/f" then
    PAdd (on s "r" (POpp (PMul (PMul (pz 2) (PMul v_M (PMul v_ri v_ri))) (PMul v_fi v_fi))))
         (on s "M" (PMul (PMul (pz 2) v_ri) (PMul v_fi v_fi)))
  else if String.eqb u "1/w" then
    PAdd (on s "r" (PMul (PMul (pz 2) (PMul v_k v_r)) (PMul v_wi v_wi)))
         (on s "k" (PMul (PMul v_r v_r) (PMul v_wi v_wi)))
  else if String.eqb u "1/a" then on s "t" (POpp (PMul (PV "a'") (PMul v_ai v_ai)))
  else on s u (PC 1%Q).
Fixpoint sdiff (s : string) (e : pexp) : pexp :=
  match e with
  | PC _ => PC 0%Q
  | PV t => dgen s t
  | PAdd a b => PAdd (sdiff s a) (sdiff s b)
  | PMul a b => PAdd (PMul (sdiff s a) b) (PMul a (sdiff s b))
  | PSub a b => PSub (sdiff s a) (sdiff s b)
  | POpp a => POpp (sdiff s a)
  end.

(** Normal form: that of Inst.v with these rules applied as long as possible. *)
Definition rules : list (mono * pexp) := [
  (["r"; "1/r"], pz 1); (["sin"; "1/sin"], pz 1); (["cos"; "cos"], PSub (pz 1) (PMul v_s v_s));
  (["M"; "1/f"], PMul (PC (1 # 2)) (PSub (PMul v_r v_fi) v_r));
  (["k"; "1/w"], PSub (PMul (PMul v_ri v_ri) v_wi) (PMul v_ri v_ri));
  (["a"; "1/a"], pz 1); (["cos(phi)"; "cos(phi)"], PSub (pz 1) (PMul v_sp v_sp))]%string.
Fixpoint take_all (l m : mono) : option mono :=
  match l with
  | [] => Some m
  | x :: l' => match take_out x m with Some m' => take_all l' m' | None => None end
  end.
Fixpoint rewr (rs : list (mono * pexp)) (m : mono) : option poly :=
  match rs with
  | [] => None
  | (l, e) :: rs' => match take_all l m with Some m' => Some (poly_scale 1%Q m' (norm e)) | None => rewr rs' m end
  end.
Definition step (p : poly) : poly :=
  fold_right (fun t q => match rewr rules (snd t) with
    | Some r => poly_add (poly_scale (fst t) [] r) q
    | None => poly_add1 (fst t) (snd t) q end) [] p.
Fixpoint reduce (fuel : nat) (p : poly) : poly :=
  match fuel with
  | O => p
  | S f => if existsb (fun t => match rewr rules (snd t) with Some _ => true | None => false end) p then reduce f (step p) else p
  end.
Definition snorm (e : pexp) : poly := reduce 60 (norm e).
Definition ssimp (e : pexp) : pexp := poly_exp (snorm e).
Definition sisz (e : pexp) : bool := match snorm e with [] => true | _ => false end.

(** The inverse of a product of units, and of a matrix whose determinant is one. *)
Definition sunit (u : string) : option pexp :=
  if String.eqb u "r" then Some v_ri else if String.eqb u "1/r" then Some v_r
  else if String.eqb u "sin" then Some v_si else if String.eqb u "1/sin" then Some v_s
  else if String.eqb u "a" then Some v_ai else if String.eqb u "1/a" then Some v_a
  else if String.eqb u "1/f" then Some v_f else if String.eqb u "1/w" then Some v_w else None.
Fixpoint sinverse (m : mono) : option pexp :=
  match m with
  | [] => Some (PC 1%Q)
  | x :: m' => match sunit x, sinverse m' with Some y, Some r => Some (PMul y r) | _, _ => None end
  end.
Definition sinv_check (n : nat) (m r : list pexp) : bool :=
  (length r =? n * n) &&
  forallb (fun i => forallb (fun j =>
    sisz (PSub (plsum (seq 0 n) (fun k => PMul (pmat_at n r i k) (pmat_at n m k j)))
               (if i =? j then PC 1%Q else PC 0%Q)) &&
    sisz (PSub (plsum (seq 0 n) (fun k => PMul (pmat_at n m i k) (pmat_at n r k j)))
               (if i =? j then PC 1%Q else PC 0%Q))) (seq 0 n)) (seq 0 n).
Definition sminv (n : nat) (m : list pexp) : option (list pexp) :=
  match snorm (pdet n (prows n m)) with
  | [(c, k)] =>
    match sinverse k with
    | Some k' => let r := map (fun e => ssimp (PMul k' e)) (pcand n m c) in
                 if sinv_check n m r then Some r else None
    | None => None
    end
  | _ => None
  end.

Definition SphOps : AlgOps := {|
  K := pexp; keq := seq_; k0 := PC 0%Q; k1 := PC 1%Q; kadd := PAdd; kmul := PMul; ksub := PSub;
  kopp := POpp; kinvn := fun n => PC (/ inject_Z (Z.of_nat n))%Q;
  simp := ssimp; kisz := sisz; ksym := PV; kdiff := sdiff; ksub1 := psubs; minv := sminv;
  mdet0 := fun n m => match sminv n m with Some _ => false | None => true end;
  kclean := ssimp
|}.

Section Sound.
Variable R : calg.
Variable v : string -> car R.
Hypothesis U : rels R v.
Add Ring Rring5 : (cring R).
Notation mval := (mono_val R v).


Lemma cinj_two : cinj R (inject_Z 2) = cadd R (c1 R) (c1 R).
Proof. rewrite <- cinj_1, <- cinj_add. apply cinj_eq. reflexivity. Qed.
Lemma cinj_one : cinj R (inject_Z 1) = c1 R. Proof. exact (cinj_1 R). Qed.
Lemma cinj_half : cadd R (cinj R (1 # 2)) (cinj R (1 # 2)) = c1 R.
Proof. rewrite <- cinj_1, <- cinj_add. apply cinj_eq. reflexivity. Qed.
Notation "a + b" := (cadd R a b). Notation "a * b" := (cmul R a b). Notation "a - b" := (csub R a b). Notation "- a" := (copp R a).
Notation r := (v "r"%string). Notation ri := (v "1/r"%string). Notation sn := (v "sin"%string). Notation si := (v "1/sin"%string).
Notation cs := (v "cos"%string). Notation M := (v "M"%string). Notation fi := (v "1/f"%string). Notation k := (v "k"%string).
Notation wi := (v "1/w"%string). Notation a := (v "a"%string). Notation ai := (v "1/a"%string).
Lemma red_f : M * fi = cinj R (1 # 2) * (r * fi - r).
Proof.
  assert (E := rel_f R v U). assert (E1 := rel_r R v U). cbn [peval v_f v_M v_ri] in E. rewrite cinj_two, cinj_one in E.
  transitivity ((cinj R (1 # 2) + cinj R (1 # 2)) * (M * fi)); [rewrite cinj_half; ring|].
  transitivity (cinj R (1 # 2) * (r * fi - r * ((c1 R - (c1 R + c1 R) * (M * ri)) * fi) + (c1 R - r * ri) * (M * fi + M * fi))); [ring|].
  rewrite E, E1. ring.
Qed.
Lemma red_w : k * wi = ri * ri * wi - ri * ri.
Proof.
  assert (E := rel_w R v U). assert (E1 := rel_r R v U). cbn [peval v_w v_k v_r] in E. rewrite cinj_one in E.
  transitivity (ri * ri * wi - ri * ri * ((c1 R - k * (r * r)) * wi) + (c1 R - r * ri) * (c1 R + r * ri) * (k * wi)); [ring|].
  rewrite E, E1. ring.
Qed.
Lemma rules_ok l e : In (l, e) rules -> mval l = peval R v e.
Proof.
  unfold rules. cbn [In]. intros H. repeat (destruct H as [H|H]; [injection H as <- <-; cbn [mono_val peval v_s v_r v_ri v_fi v_wi v_sp]; rewrite ?cinj_one|]); [..|destruct H].
  - transitivity (r * ri); [ring|exact (rel_r R v U)].
  - transitivity (sn * si); [ring|exact (rel_s R v U)].
  - transitivity (cs * cs); [ring|exact (rel_c R v U)].
  - transitivity (M * fi); [ring|exact red_f].
  - transitivity (k * wi); [ring|exact red_w].
  - transitivity (a * ai); [ring|exact (rel_a R v U)].
  - transitivity (v "cos(phi)"%string * v "cos(phi)"%string); [ring|exact (rel_p R v U)].
Qed.
Lemma take_all_val l : forall m m', take_all l m = Some m' -> mval m = mval l * mval m'.
Proof.
  induction l as [|x l IH]; intros m m' H; cbn [take_all] in H; [injection H as <-; cbn [mono_val]; ring|].
  destruct (take_out x m) as [q|] eqn:E; [|discriminate]. rewrite (take_out_val R v _ _ _ E), (IH _ _ H). cbn [mono_val]. ring.
Qed.
Lemma rewr_val rs m p : (forall l e, In (l, e) rs -> mval l = peval R v e) -> rewr rs m = Some p -> poly_val R v p = mval m.
Proof.
  induction rs as [|[l e] rs IH]; intros H E; cbn [rewr] in E; [discriminate|]. destruct (take_all l m) as [m'|] eqn:T.
  - injection E as <-. rewrite poly_scale_val, norm_val, cinj_1, (take_all_val _ _ _ T), (H l e (or_introl eq_refl)). ring.
  - apply IH; [|exact E]. intros; apply H; right; assumption.
Qed.
Lemma step_val p : poly_val R v (step p) = poly_val R v p.
Proof.
  unfold step. induction p as [|t p IH]; cbn [fold_right poly_val]; [reflexivity|]. destruct (rewr rules (snd t)) as [q|] eqn:E.
  - rewrite poly_add_val, poly_scale_val, IH, (rewr_val _ _ _ rules_ok E). cbn [mono_val]. ring.
  - rewrite poly_add1_val, IH. reflexivity.
Qed.
Lemma reduce_val f : forall p, poly_val R v (reduce f p) = poly_val R v p.
Proof. induction f as [|f IH]; intros p; cbn [reduce]; [reflexivity|]. destruct (existsb _ p); [|reflexivity]. rewrite IH. apply step_val. Qed.
Lemma snorm_val e : poly_val R v (snorm e) = peval R v e.
Proof. unfold snorm. rewrite reduce_val. apply norm_val. Qed.

Lemma isa_quote u : isa u = true -> isa (u ++ "'") = true.
Proof.
  unfold isa. destruct u as [|c u]; [discriminate|]. destruct c as [[][][][][][][][]]; try discriminate. cbn [append].
  induction u as [|c u IH]; [reflexivity|]. cbn [quotes append]. destruct c as [[][][][][][][][]]; try discriminate. exact IH.
Qed.
Lemma on_zero s x : on s x (PC 0%Q) = PC 0%Q.
Proof. unfold on. destruct (String.eqb s x); reflexivity. Qed.
Lemma sdiff_on s x y e : sdiff s (on x y e) = on x y (sdiff s e).
Proof. unfold on. destruct (String.eqb x y); reflexivity. Qed.
Ltac eqs s := destruct (String.eqb_spec s "r") as [->|]; [|destruct (String.eqb_spec s "theta") as [->|]; [|destruct (String.eqb_spec s "M") as [->|];
  [|destruct (String.eqb_spec s "k") as [->|]; [|destruct (String.eqb_spec s "t") as [->|]]]]].
Lemma dgen_comm s t u : peval R v (sdiff s (dgen t u)) = peval R v (sdiff t (dgen s u)).
Proof.
  unfold dgen at 1 2. destruct (isa u) eqn:Ea.
  { rewrite !sdiff_on. cbn [sdiff]. unfold dgen. rewrite (isa_quote u Ea). unfold on. destruct (String.eqb s "t"), (String.eqb t "t"); reflexivity. }
  destruct (String.eqb u "sin(phi)"); [|destruct (String.eqb u "cos(phi)")].
  1, 2: rewrite !sdiff_on; cbn [sdiff v_sp v_cp]; unfold dgen, on; cbn [isa quotes String.eqb Ascii.eqb Bool.eqb]; destruct (String.eqb s "phi"), (String.eqb t "phi"); cbn [peval]; rewrite ?cinj_0; try reflexivity; ring.
  destruct (String.eqb u "1/r"); [|destruct (String.eqb u "sin"); [|destruct (String.eqb u "1/sin"); [|destruct (String.eqb u "cos"); [|
  destruct (String.eqb u "1/f"); [|destruct (String.eqb u "1/w"); [|destruct (String.eqb u "1/a")]]]]]].
  8: { rewrite !sdiff_on. cbn [sdiff]. rewrite !on_zero. reflexivity. }
  all: cbn [sdiff]; rewrite !sdiff_on.
  all: cbn [sdiff v_r v_ri v_s v_si v_c v_M v_k v_fi v_wi v_a v_ai]; unfold dgen; cbn [isa quotes String.eqb Ascii.eqb Bool.eqb append v_r v_ri v_s v_si v_c v_M v_k v_fi v_wi v_a v_ai].
  all: unfold on; destruct (String.eqb s "r") eqn:?, (String.eqb t "r") eqn:?, (String.eqb s "theta") eqn:?, (String.eqb t "theta") eqn:?, (String.eqb s "M") eqn:?, (String.eqb t "M") eqn:?,
     (String.eqb s "k") eqn:?, (String.eqb t "k") eqn:?, (String.eqb s "t") eqn:?, (String.eqb t "t") eqn:?; try reflexivity;
     repeat match goal with H : String.eqb _ _ = true |- _ => apply String.eqb_eq in H; try subst s; try subst t end; try discriminate.
  all: cbn [peval]; rewrite ?cinj_0, ?cinj_one, ?cinj_two, ?cinj_1; ring.
Qed.
Lemma sdiff_comm_val s t e : peval R v (sdiff s (sdiff t e)) = peval R v (sdiff t (sdiff s e)).
Proof.
  induction e as [q|u|x IHx y IHy|x IHx y IHy|x IHx y IHy|x IHx]; cbn [peval sdiff]; try congruence; [apply dgen_comm|rewrite IHx, IHy; ring].
Qed.

(** The derivative is the dual part of the value. *)
Definition sval (s t : string) : car (dual R) := (v t, peval R v (dgen s t)).
Lemma seval_dual s e : peval (dual R) (sval s) e = (peval R v e, peval R v (sdiff s e)).
Proof.
  induction e as [q|t|x IHx y IHy|x IHx y IHy|x IHx y IHy|x IHx]; cbn [peval sdiff].
  - cbn. rewrite cinj_0. reflexivity.
  - reflexivity.
  - rewrite IHx, IHy; reflexivity.
  - rewrite IHx, IHy; reflexivity.
  - rewrite IHx, IHy; reflexivity.
  - rewrite IHx; reflexivity.
Qed.
Lemma sval_rels s : rels (dual R) (sval s).
Proof.
  assert (E1 := rel_r R v U). assert (E2 := rel_s R v U). assert (E3 := rel_c R v U). assert (E4 := rel_f R v U). assert (E5 := rel_w R v U). assert (E6 := rel_a R v U). assert (E7 := rel_p R v U).
  constructor; rewrite ?seval_dual; cbn [peval v_f v_w v_M v_k v_r v_ri] in E4, E5; rewrite ?cinj_two, ?cinj_one in *; cbn [cmul cadd csub c1 dual fst snd sval]; (apply f_equal2; [first [assumption|exact (rel_f R v U)|exact (rel_w R v U)]|]); cbn [sdiff v_f v_w v_M v_k v_r v_ri peval];
    unfold dgen; cbn [isa quotes String.eqb Ascii.eqb Bool.eqb append]; unfold on; cbn [v_r v_ri v_s v_si v_c v_M v_k v_fi v_wi v_a v_ai].
  - destruct (String.eqb s "r"); cbn [peval v_r v_ri v_s v_si v_c v_M v_k v_fi v_wi v_a v_ai]; rewrite ?cinj_0, ?cinj_1; [|ring]. ring [E1].
  - destruct (String.eqb s "theta"); cbn [peval v_r v_ri v_s v_si v_c v_M v_k v_fi v_wi v_a v_ai]; rewrite ?cinj_0, ?cinj_1; [|ring]. ring [E2].
  - destruct (String.eqb s "theta"); cbn [peval v_r v_ri v_s v_si v_c v_M v_k v_fi v_wi v_a v_ai]; rewrite ?cinj_0, ?cinj_1; ring.
  - destruct (String.eqb s "r"), (String.eqb s "M"); cbn [peval v_r v_ri v_s v_si v_c v_M v_k v_fi v_wi v_a v_ai]; rewrite ?cinj_0, ?cinj_1, ?cinj_two, ?cinj_one; try ring.
    all: match goal with |- ?x = _ => idtac end.
    + transitivity ((c1 R + c1 R) * (M * (ri * ri) - ri) * fi * (c1 R - (c1 R - (c1 R + c1 R) * (M * ri)) * fi)); [ring|]. rewrite E4. ring.
    + transitivity ((c1 R + c1 R) * (M * (ri * ri)) * fi * (c1 R - (c1 R - (c1 R + c1 R) * (M * ri)) * fi)); [ring|]. rewrite E4. ring.
    + transitivity ((c1 R + c1 R) * (- ri) * fi * (c1 R - (c1 R - (c1 R + c1 R) * (M * ri)) * fi)); [ring|]. rewrite E4. ring.
  - destruct (String.eqb s "r"), (String.eqb s "k"); cbn [peval v_r v_ri v_s v_si v_c v_M v_k v_fi v_wi v_a v_ai]; rewrite ?cinj_0, ?cinj_1, ?cinj_two, ?cinj_one; try ring.
    + transitivity (- ((c1 R + c1 R) * (k * r) + r * r) * wi * (c1 R - (c1 R - k * (r * r)) * wi)); [ring|]. rewrite E5. ring.
    + transitivity (- ((c1 R + c1 R) * (k * r)) * wi * (c1 R - (c1 R - k * (r * r)) * wi)); [ring|]. rewrite E5. ring.
    + transitivity (- (r * r) * wi * (c1 R - (c1 R - k * (r * r)) * wi)); [ring|]. rewrite E5. ring.
  - destruct (String.eqb s "t"); cbn [peval v_r v_ri v_s v_si v_c v_M v_k v_fi v_wi v_a v_ai]; rewrite ?cinj_0, ?cinj_1; [|ring]. ring [E6].
  - destruct (String.eqb s "phi"); cbn [peval v_sp v_cp]; rewrite ?cinj_0, ?cinj_1; ring.
Qed.
End Sound.

Lemma ssimp_ok e : seq_ (ssimp e) e.
Proof. intros R v U. unfold ssimp. rewrite poly_exp_val. apply snorm_val, U. Qed.
Lemma sisz_ok e : sisz e = true -> seq_ e (PC 0%Q).
Proof.
  unfold sisz. intros H R v U. rewrite <- (snorm_val R v U). destruct (snorm e); [|discriminate].
  cbn. symmetry; apply cinj_0.
Qed.

#[export] Instance SphLaws : @AlgLaws SphOps.
Proof.
  constructor.
  - constructor.
    + intros a R v U; reflexivity.
    + intros a b H R v U; symmetry; apply H, U.
    + intros a b c H1 H2 R v U; rewrite (H1 R v U); apply H2, U.
  - intros a b H c d H' R v U; cbn; rewrite (H R v U), (H' R v U); reflexivity.
  - intros a b H c d H' R v U; cbn; rewrite (H R v U), (H' R v U); reflexivity.
  - intros a b H R v U; cbn; rewrite (H R v U); reflexivity.
  - constructor; intros; intros R v U; cbn; rewrite ?cinj_0, ?cinj_1.
    all: destruct (cring R); auto.
  - exact ssimp_ok.
  - exact sisz_ok.
  - intros n Hn R v U. assert (E : forall k, @knat SphOps k = @knat PolyOps k) by (induction k as [|k IH]; [reflexivity|]; change (PAdd (PC 1%Q) (@knat SphOps k) = PAdd (PC 1%Q) (@knat PolyOps k)); rewrite IH; reflexivity).
    rewrite E. exact (@kinvn_ok PolyOps PolyLaws n Hn R v).
Qed.

#[export] Instance SphDiff : @DiffLaws SphOps.
Proof.
  constructor.
  - intros s a b H R v U. assert (H2 := H (dual R) (sval R v s) (sval_rels R v U s)).
    rewrite !seval_dual in H2. cbn. congruence.
  - intros s x y R v U; reflexivity.
  - intros s x y R v U; reflexivity.
  - intros s t x R v U. apply sdiff_comm_val.
Qed.

(** Different values at a rational point refute equality: r = 4, M = 1, k = 1, sin = 3/5, cos = 4/5,
    and a and all its derivatives are 1. *)
Definition point (u : string) : Qc :=
  if String.eqb u "r" then Q2Qc 4 else if String.eqb u "1/r" then Q2Qc (1 # 4)
  else if String.eqb u "sin" then Q2Qc (3 # 5) else if String.eqb u "1/sin" then Q2Qc (5 # 3)
  else if String.eqb u "sin(phi)" then Q2Qc (3 # 5) else if String.eqb u "cos(phi)" then Q2Qc (4 # 5)
  else if String.eqb u "cos" then Q2Qc (4 # 5) else if String.eqb u "1/f" then Q2Qc 2
  else if String.eqb u "1/w" then Q2Qc (-1 # 15) else 1%Qc.
Lemma point_rels : rels Qc_alg point.
Proof. constructor; apply Qc_is_canon; reflexivity. Qed.
Lemma seq_point a b : seq_ a b -> peval Qc_alg point a = peval Qc_alg point b.
Proof. intros H. apply (H Qc_alg point point_rels). Qed.

Lemma sisz_sub_eq a b : sisz (PSub a b) = true -> seq_ a b.
Proof.
  intros H R v U. apply sisz_ok in H. specialize (H R v U). cbn in H. rewrite cinj_0 in H.
  assert (G := cring R). 
  transitivity (cadd R (csub R (peval R v a) (peval R v b)) (peval R v b)).
  - destruct G as [H1 H2 H3 _ _ _ _ H4 H5]. rewrite H4. rewrite <- H3. rewrite (H2 (copp R _)). rewrite H5. rewrite H2, H1. reflexivity.
  - rewrite H. destruct G as [H1 _ _ _ _ _ _ _ _]. apply H1.
Qed.
Lemma splsum_lsum {X} (l : list X) f : @lsum SphOps X l f = plsum l f.
Proof. induction l as [|x l IH]; cbn; [reflexivity|]. rewrite IH; reflexivity. Qed.

#[export] Instance SphDet : @DetLaws SphOps.
Proof.
  constructor. intros n m _ H. cbn in H. cbn. destruct (sminv n m) as [r|]; [|discriminate].
  exists r. reflexivity.
Qed.

#[export] Instance SphInv : @InvLaws SphOps.
Proof.
  assert (G : forall n m r, sminv n m = Some r -> sinv_check n m r = true).
  { intros n m r H. unfold sminv in H.
    destruct (snorm (pdet n (prows n m))) as [|[c k] [|t p]]; try discriminate.
    destruct (sinverse k) as [k'|]; [|discriminate].
    destruct (sinv_check n m (map (fun e => ssimp (PMul k' e)) (pcand n m c))) eqn:E; [|discriminate]. injection H as <-. exact E. }
  assert (G2 : forall n m r, sinv_check n m r = true -> forall i j, i < n -> j < n ->
     seq_ (plsum (seq 0 n) (fun k => PMul (pmat_at n r i k) (pmat_at n m k j))) (if i =? j then PC 1%Q else PC 0%Q) /\
     seq_ (plsum (seq 0 n) (fun k => PMul (pmat_at n m i k) (pmat_at n r k j))) (if i =? j then PC 1%Q else PC 0%Q)).
  { intros n m r H i j Hi Hj. unfold sinv_check in H. apply andb_prop in H as [_ H].
    rewrite forallb_forall in H. specialize (H i). rewrite forallb_forall in H.
    assert (Hin : In i (seq 0 n)) by (apply in_seq; lia). specialize (H Hin j).
    assert (Hjn : In j (seq 0 n)) by (apply in_seq; lia). specialize (H Hjn).
    apply andb_prop in H as [H1 H2]. split; apply sisz_sub_eq; assumption. }
  constructor.
  - intros n m r _ H. apply G in H. unfold sinv_check in H. apply andb_prop in H as [H _].
    apply Nat.eqb_eq in H. exact H.
  - intros n m r _ H i j Hi Hj. unfold nsum. rewrite splsum_lsum.
    destruct (G2 n m r (G n m r H) i j Hi Hj) as [H1 _]. exact H1.
  - intros n m r _ H i j Hi Hj. unfold nsum. rewrite splsum_lsum.
    destruct (G2 n m r (G n m r H) i j Hi Hj) as [_ H2]. exact H2.
Qed.

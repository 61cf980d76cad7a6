(** Concrete component algebras.  They show that the laws assumed by the theorems can be
    satisfied, and they carry the witnesses of the refutations. *)
From Coq Require Import QArith Qcanon.
From Verif Require Import Alg.
Local Open Scope nat_scope.

(** ** Commutative algebras over the rationals *)

Record calg := {
  car : Type;
  c0 : car; c1 : car;
  cadd : car -> car -> car; cmul : car -> car -> car;
  csub : car -> car -> car; copp : car -> car;
  cinj : Q -> car;
  cring : ring_theory c0 c1 cadd cmul csub copp (@eq car);
  cinj_eq : forall x y, (x == y)%Q -> cinj x = cinj y;
  cinj_add : forall x y, cinj (x + y)%Q = cadd (cinj x) (cinj y);
  cinj_mul : forall x y, cinj (x * y)%Q = cmul (cinj x) (cinj y);
  cinj_0 : cinj 0%Q = c0;
  cinj_1 : cinj 1%Q = c1
}.

Definition Qc_alg : calg.
Proof.
  refine {| car := Qc; c0 := 0%Qc; c1 := 1%Qc; cadd := Qcplus; cmul := Qcmult; csub := Qcminus;
            copp := Qcopp; cinj := Q2Qc |}.
  - exact Qcrt.
  - intros x y H. apply Qc_is_canon. cbn [this Q2Qc Qcplus Qcmult]. rewrite !Qred_correct. exact H.
  - intros x y. apply Qc_is_canon. cbn [this Q2Qc Qcplus Qcmult]. rewrite !Qred_correct. reflexivity.
  - intros x y. apply Qc_is_canon. cbn [this Q2Qc Qcplus Qcmult]. rewrite !Qred_correct. reflexivity.
  - reflexivity.
  - reflexivity.
Defined.

(** Dual numbers: pairs (a, b) standing for a + b e with e*e = 0. *)
Section Dual.
Variable R : calg.
Add Ring Rring : (cring R).
Definition dual : calg.
Proof.
  refine {| car := car R * car R; c0 := (c0 R, c0 R); c1 := (c1 R, c0 R);
    cadd := fun x y => (cadd R (fst x) (fst y), cadd R (snd x) (snd y));
    cmul := fun x y => (cmul R (fst x) (fst y), cadd R (cmul R (snd x) (fst y)) (cmul R (fst x) (snd y)));
    csub := fun x y => (csub R (fst x) (fst y), csub R (snd x) (snd y));
    copp := fun x => (copp R (fst x), copp R (snd x));
    cinj := fun q => (cinj R q, c0 R) |}.
  - constructor; intros; repeat match goal with x : (_ * _)%type |- _ => destruct x end; cbn; f_equal; ring.
  - intros x y H; cbn; rewrite (cinj_eq R x y H); reflexivity.
  - intros x y; cbn; rewrite cinj_add; f_equal; ring.
  - intros x y; cbn; rewrite cinj_mul; f_equal; ring.
  - cbn; rewrite cinj_0; reflexivity.
  - cbn; rewrite cinj_1; reflexivity.
Defined.
End Dual.

(** ** Polynomial expressions *)

Inductive pexp : Set :=
| PC (q : Q) | PV (s : string)
| PAdd (a b : pexp) | PMul (a b : pexp) | PSub (a b : pexp) | POpp (a : pexp).

Fixpoint peval (R : calg) (v : string -> car R) (e : pexp) : car R :=
  match e with
  | PC q => cinj R q
  | PV s => v s
  | PAdd a b => cadd R (peval R v a) (peval R v b)
  | PMul a b => cmul R (peval R v a) (peval R v b)
  | PSub a b => csub R (peval R v a) (peval R v b)
  | POpp a => copp R (peval R v a)
  end.

(** Equality as polynomials: equal value in every commutative algebra. *)
Definition peq (a b : pexp) : Prop := forall R v, peval R v a = peval R v b.

Fixpoint pdiff (s : string) (e : pexp) : pexp :=
  match e with
  | PC _ => PC 0%Q
  | PV t => PC (if String.eqb s t then 1%Q else 0%Q)
  | PAdd a b => PAdd (pdiff s a) (pdiff s b)
  | PMul a b => PAdd (PMul (pdiff s a) b) (PMul a (pdiff s b))
  | PSub a b => PSub (pdiff s a) (pdiff s b)
  | POpp a => POpp (pdiff s a)
  end.

Fixpoint psubs (s : string) (r e : pexp) : pexp :=
  match e with
  | PC q => PC q
  | PV t => if String.eqb s t then r else PV t
  | PAdd a b => PAdd (psubs s r a) (psubs s r b)
  | PMul a b => PMul (psubs s r a) (psubs s r b)
  | PSub a b => PSub (psubs s r a) (psubs s r b)
  | POpp a => POpp (psubs s r a)
  end.

(** *** Normal form: sum of monomials *)

Definition mono := list string.
Definition poly := list (Q * mono).

Fixpoint mono_eqb (a b : mono) : bool :=
  match a, b with
  | [], [] => true
  | x :: a', y :: b' => String.eqb x y && mono_eqb a' b'
  | _, _ => false
  end.

Definition str_leb (a b : string) : bool :=
  match String.compare a b with Gt => false | _ => true end.

Fixpoint mono_ins (x : string) (m : mono) : mono :=
  match m with
  | [] => [x]
  | y :: m' => if str_leb x y then x :: m else y :: mono_ins x m'
  end.

Fixpoint mono_mul (a b : mono) : mono :=
  match a with [] => b | x :: a' => mono_ins x (mono_mul a' b) end.

Definition Qz (c : Q) : bool := (Qnum c =? 0)%Z.

Fixpoint poly_add1 (c : Q) (m : mono) (p : poly) : poly :=
  match p with
  | [] => if Qz c then [] else [(c, m)]
  | (d, k) :: p' =>
      if mono_eqb m k then (if Qz (c + d) then p' else (Qred (c + d)%Q, k) :: p')
      else (d, k) :: poly_add1 c m p'
  end.

Fixpoint poly_add (p q : poly) : poly :=
  match p with [] => q | t :: p' => poly_add1 (fst t) (snd t) (poly_add p' q) end.
Fixpoint poly_scale (c : Q) (m : mono) (p : poly) : poly :=
  match p with
  | [] => []
  | t :: p' => poly_add1 (Qred (c * fst t)%Q) (mono_mul m (snd t)) (poly_scale c m p')
  end.
Fixpoint poly_mul (p q : poly) : poly :=
  match p with [] => [] | t :: p' => poly_add (poly_scale (fst t) (snd t) q) (poly_mul p' q) end.

Fixpoint norm (e : pexp) : poly :=
  match e with
  | PC q => poly_add1 q [] []
  | PV s => [(1%Q, [s])]
  | PAdd a b => poly_add (norm a) (norm b)
  | PMul a b => poly_mul (norm a) (norm b)
  | PSub a b => poly_add (norm a) (poly_scale (- (1))%Q [] (norm b))
  | POpp a => poly_scale (- (1))%Q [] (norm a)
  end.

Fixpoint mono_exp (m : mono) : pexp :=
  match m with [] => PC 1%Q | s :: m' => PMul (PV s) (mono_exp m') end.
Fixpoint poly_exp (p : poly) : pexp :=
  match p with
  | [] => PC 0%Q
  | t :: p' => PAdd (PMul (PC (fst t)) (mono_exp (snd t))) (poly_exp p')
  end.

Definition psimp (e : pexp) : pexp := poly_exp (norm e).
Definition pisz (e : pexp) : bool := match norm e with [] => true | _ => false end.

(** *** Matrix inverse by cofactors, kept only if it checks *)

Definition prow (n : nat) (m : list pexp) (i : nat) : list pexp := firstn n (skipn (i * n) m).
Definition psumf (n : nat) (f : nat -> pexp) : pexp :=
  fold_right (fun i e => PAdd (f i) e) (PC 0%Q) (seq 0 n).

Fixpoint pdet (fuel : nat) (rows : list (list pexp)) : pexp :=
  match fuel, rows with
  | S f, r :: rest =>
      psimp (psumf (length r) (fun j =>
        let t := PMul (nth j r (PC 0%Q)) (pdet f (map (del_nth j) rest)) in
        if Nat.even j then t else POpp t))
  | _, _ => PC 1%Q
  end.

Definition prows (n : nat) (m : list pexp) : list (list pexp) := map (prow n m) (seq 0 n).

Definition pcand (n : nat) (m : list pexp) (c : Q) : list pexp :=
  flat_map (fun i => map (fun j =>
     let d := pdet n (map (del_nth i) (del_nth j (prows n m))) in
     psimp (PMul (PC (/ c)%Q) (if Nat.even (i + j) then d else POpp d))) (seq 0 n)) (seq 0 n).

Definition pmat_at (n : nat) (m : list pexp) (i j : nat) : pexp := nth (i * n + j) m (PC 0%Q).

Fixpoint plsum {X : Type} (l : list X) (f : X -> pexp) : pexp :=
  match l with [] => PC 0%Q | x :: l' => PAdd (f x) (plsum l' f) end.

Definition pinv_check (n : nat) (m r : list pexp) : bool :=
  (length r =? n * n) &&
  forallb (fun i => forallb (fun j =>
    pisz (PSub (plsum (seq 0 n) (fun k => PMul (pmat_at n r i k) (pmat_at n m k j)))
               (if i =? j then PC 1%Q else PC 0%Q)) &&
    pisz (PSub (plsum (seq 0 n) (fun k => PMul (pmat_at n m i k) (pmat_at n r k j)))
               (if i =? j then PC 1%Q else PC 0%Q))) (seq 0 n)) (seq 0 n).

Definition pminv (n : nat) (m : list pexp) : option (list pexp) :=
  match norm (pdet n (prows n m)) with
  | [(c, [])] => let r := pcand n m c in if pinv_check n m r then Some r else None
  | _ => None
  end.

Definition PolyOps : AlgOps := {|
  K := pexp; keq := peq; k0 := PC 0%Q; k1 := PC 1%Q; kadd := PAdd; kmul := PMul; ksub := PSub;
  kopp := POpp; kinvn := fun n => PC (/ inject_Z (Z.of_nat n))%Q;
  simp := psimp; kisz := pisz; ksym := PV; kdiff := pdiff; ksub1 := psubs; minv := pminv;
  mdet0 := fun n m => match pminv n m with Some _ => false | None => true end;
  kclean := psimp
|}.

(** *** Soundness of the normal form *)

Section Norm.
Variable R : calg.
Variable v : string -> car R.
Add Ring Rring2 : (cring R).

Fixpoint mono_val (m : mono) : car R :=
  match m with [] => c1 R | s :: m' => cmul R (v s) (mono_val m') end.
Fixpoint poly_val (p : poly) : car R :=
  match p with
  | [] => c0 R
  | t :: p' => cadd R (cmul R (cinj R (fst t)) (mono_val (snd t))) (poly_val p')
  end.

Lemma mono_eqb_true a b : mono_eqb a b = true -> a = b.
Proof.
  revert b; induction a as [|x a IH]; intros [|y b] H; cbn in H; try discriminate; [reflexivity|].
  apply andb_prop in H as [H1 H2]. apply String.eqb_eq in H1. apply IH in H2. congruence.
Qed.

Lemma mono_ins_val x m : mono_val (mono_ins x m) = cmul R (v x) (mono_val m).
Proof.
  induction m as [|y m IH]; cbn [mono_ins mono_val]; [reflexivity|].
  destruct (str_leb x y); cbn [mono_val]; [reflexivity|]. rewrite IH. ring.
Qed.

Lemma mono_mul_val a b : mono_val (mono_mul a b) = cmul R (mono_val a) (mono_val b).
Proof.
  induction a as [|x a IH]; cbn [mono_mul mono_val]; [ring|]. rewrite mono_ins_val, IH. ring.
Qed.

Lemma Qz_true a : Qz a = true -> (a == 0)%Q.
Proof. unfold Qz. intros H. apply Z.eqb_eq in H. unfold Qeq. cbn. lia. Qed.

Lemma poly_add1_val c m p :
  poly_val (poly_add1 c m p) = cadd R (cmul R (cinj R c) (mono_val m)) (poly_val p).
Proof.
  induction p as [|[d k] p IH]; cbn [poly_add1].
  - destruct (Qz c) eqn:E.
    + apply Qz_true in E. cbn [poly_val]. rewrite (cinj_eq R _ _ E), cinj_0. ring.
    + reflexivity.
  - destruct (mono_eqb m k) eqn:E.
    + apply mono_eqb_true in E; subst.
      destruct (Qz (c + d)) eqn:E.
      * apply Qz_true in E. cbn [poly_val fst snd].
        assert (H := cinj_add R c d). rewrite (cinj_eq R _ _ E), cinj_0 in H.
        transitivity (cadd R (cmul R (cadd R (cinj R c) (cinj R d)) (mono_val k)) (poly_val p)).
        -- rewrite <- H. ring.
        -- ring.
      * cbn [poly_val fst snd]. rewrite (cinj_eq R _ _ (Qred_correct _)), cinj_add. ring.
    + cbn [poly_val fst snd]. rewrite IH. ring.
Qed.

Lemma poly_add_val p q : poly_val (poly_add p q) = cadd R (poly_val p) (poly_val q).
Proof.
  induction p as [|[c m] p IH]; cbn [poly_add poly_val fst snd]; [ring|].
  rewrite poly_add1_val, IH. ring.
Qed.

Lemma poly_scale_val c m p : poly_val (poly_scale c m p) = cmul R (cmul R (cinj R c) (mono_val m)) (poly_val p).
Proof.
  induction p as [|[d k] p IH]; cbn [poly_scale poly_val fst snd]; [ring|].
  rewrite poly_add1_val, IH, mono_mul_val, (cinj_eq R _ _ (Qred_correct _)), cinj_mul. ring.
Qed.

Lemma poly_mul_val p q : poly_val (poly_mul p q) = cmul R (poly_val p) (poly_val q).
Proof.
  induction p as [|[d k] p IH]; cbn [poly_mul poly_val fst snd]; [ring|].
  rewrite poly_add_val, poly_scale_val, IH. ring.
Qed.

Lemma cinj_m1 : cinj R (- (1))%Q = copp R (c1 R).
Proof.
  assert (H := cinj_add R (- (1))%Q 1%Q).
  rewrite (cinj_eq R (- (1) + 1)%Q 0%Q) in H by reflexivity.
  rewrite cinj_0, cinj_1 in H.
  transitivity (csub R (cadd R (cinj R (- (1))%Q) (c1 R)) (c1 R)); [ring|].
  rewrite <- H. ring.
Qed.

Lemma norm_val e : poly_val (norm e) = peval R v e.
Proof.
  induction e as [q|s|a IHa b IHb|a IHa b IHb|a IHa b IHb|a IHa]; cbn [norm peval].
  - rewrite poly_add1_val. cbn [mono_val poly_val]. ring.
  - cbn [mono_val poly_val fst snd]. rewrite cinj_1. ring.
  - rewrite poly_add_val, IHa, IHb. reflexivity.
  - rewrite poly_mul_val, IHa, IHb. reflexivity.
  - rewrite poly_add_val, poly_scale_val, IHa, IHb, cinj_m1. cbn [mono_val]. ring.
  - rewrite poly_scale_val, IHa, cinj_m1. cbn [mono_val]. ring.
Qed.

Lemma mono_exp_val m : peval R v (mono_exp m) = mono_val m.
Proof. induction m as [|s m IH]; cbn; [apply cinj_1|]. rewrite IH. reflexivity. Qed.

Lemma poly_exp_val p : peval R v (poly_exp p) = poly_val p.
Proof.
  induction p as [|[c m] p IH]; cbn; [apply cinj_0|].
  rewrite IH, mono_exp_val. reflexivity.
Qed.
End Norm.

Lemma psimp_ok e : peq (psimp e) e.
Proof. intros R v. unfold psimp. rewrite poly_exp_val. apply norm_val. Qed.

Lemma pisz_ok e : pisz e = true -> peq e (PC 0%Q).
Proof.
  unfold pisz. intros H R v. rewrite <- norm_val. destruct (norm e); [|discriminate].
  cbn. symmetry; apply cinj_0.
Qed.

(** *** Laws *)

Lemma Q_inv_nat n : n <> 0 ->
  (inject_Z (Z.of_nat n) * / inject_Z (Z.of_nat n) == 1)%Q.
Proof.
  intros Hn. apply Qmult_inv_r. unfold Qeq; cbn. lia.
Qed.

Lemma peval_knat (R : calg) v n :
  peval R v (@knat PolyOps n) = cinj R (inject_Z (Z.of_nat n)).
Proof.
  induction n as [|n IH].
  - reflexivity.
  - change (cadd R (cinj R 1%Q) (peval R v (@knat PolyOps n)) = cinj R (inject_Z (Z.of_nat (S n)))).
    rewrite IH, <- cinj_add. apply cinj_eq.
    rewrite Nat2Z.inj_succ, <- Z.add_1_l, inject_Z_plus. reflexivity.
Qed.

Global Instance PolyLaws : @AlgLaws PolyOps.
Proof.
  constructor.
  - constructor.
    + intros a R v; reflexivity.
    + intros a b H R v; symmetry; apply H.
    + intros a b c H1 H2 R v; rewrite (H1 R v); apply H2.
  - intros a b H c d H' R v; cbn; rewrite (H R v), (H' R v); reflexivity.
  - intros a b H c d H' R v; cbn; rewrite (H R v), (H' R v); reflexivity.
  - intros a b H R v; cbn; rewrite (H R v); reflexivity.
  - constructor; intros; intros R v; cbn; rewrite ?cinj_0, ?cinj_1.
    all: destruct (cring R); auto.
  - exact psimp_ok.
  - exact pisz_ok.
  - intros n Hn R v. change (cmul R (peval R v (@knat PolyOps n)) (cinj R (/ inject_Z (Z.of_nat n))%Q) = cinj R 1%Q).
    rewrite peval_knat, <- cinj_mul. apply cinj_eq, Q_inv_nat; exact Hn.
Qed.

Lemma peval_dual (R : calg) (v : string -> car R) s e :
  peval (dual R) (fun t => (v t, cinj R (if String.eqb s t then 1%Q else 0%Q))) e =
  (peval R v e, peval R v (pdiff s e)).
Proof.
  induction e as [q|t|a IHa b IHb|a IHa b IHb|a IHa b IHb|a IHa]; cbn [peval pdiff].
  - cbn. rewrite cinj_0. reflexivity.
  - reflexivity.
  - rewrite IHa, IHb; reflexivity.
  - rewrite IHa, IHb; reflexivity.
  - rewrite IHa, IHb; reflexivity.
  - rewrite IHa; reflexivity.
Qed.

Section PL.
Variable R : calg.
Variable v : string -> car R.
Add Ring Rring3 : (cring R).

Lemma pdiff_comm_val s t e : peval R v (pdiff s (pdiff t e)) = peval R v (pdiff t (pdiff s e)).
Proof.
  induction e as [q|u|a IHa b IHb|a IHa b IHb|a IHa b IHb|a IHa]; cbn [peval pdiff]; try congruence.
  rewrite IHa, IHb. ring.
Qed.

Lemma psubs_val s r e :
  peval R v (psubs s r e) = peval R (fun t => if String.eqb s t then peval R v r else v t) e.
Proof.
  induction e as [q|u|a IHa b IHb|a IHa b IHb|a IHa b IHb|a IHa]; cbn [peval psubs]; try congruence.
  destruct (String.eqb s u); reflexivity.
Qed.

Lemma peval_ext (R' : calg) (w w' : string -> car R') e :
  (forall u, w u = w' u) -> peval R' w e = peval R' w' e.
Proof.
  intros H. induction e as [q|u|a IHa b IHb|a IHa b IHb|a IHa b IHb|a IHa]; cbn [peval]; congruence.
Qed.

Lemma psubs_chain_val s t r e :
  peval R v (pdiff t (psubs s r e)) =
  cadd R (peval R v (if String.eqb s t then PC 0%Q else psubs s r (pdiff t e)))
         (cmul R (peval R v (psubs s r (pdiff s e))) (peval R v (pdiff t r))).
Proof.
  destruct (String.eqb s t) eqn:Est.
  - apply String.eqb_eq in Est; subst t. cbn [peval]. rewrite cinj_0.
    induction e as [q|u|a IHa b IHb|a IHa b IHb|a IHa b IHb|a IHa]; cbn [peval pdiff psubs].
    + rewrite cinj_0. ring.
    + destruct (String.eqb s u) eqn:E; cbn [peval pdiff].
      * rewrite cinj_1. ring.
      * rewrite E, cinj_0. ring.
    + rewrite IHa, IHb. ring.
    + rewrite IHa, IHb. ring.
    + rewrite IHa, IHb. ring.
    + rewrite IHa. ring.
  - induction e as [q|u|a IHa b IHb|a IHa b IHb|a IHa b IHb|a IHa]; cbn [peval pdiff psubs].
    + rewrite cinj_0. ring.
    + destruct (String.eqb s u) eqn:E; cbn [peval pdiff].
      * apply String.eqb_eq in E; subst u.
        assert (E2 : String.eqb t s = false) by (apply String.eqb_neq; apply String.eqb_neq in Est; congruence).
        rewrite E2, cinj_1, cinj_0. ring.
      * rewrite !cinj_0. destruct (String.eqb t u); ring.
    + rewrite IHa, IHb. ring.
    + rewrite IHa, IHb. ring.
    + rewrite IHa, IHb. ring.
    + rewrite IHa. ring.
Qed.
End PL.

Global Instance PolyDiff : @DiffLaws PolyOps.
Proof.
  constructor.
  - intros s a b H R v. assert (H2 := H (dual R) (fun t => (v t, cinj R (if String.eqb s t then 1%Q else 0%Q)))).
    rewrite !peval_dual in H2. cbn. congruence.
  - intros s x y R v; reflexivity.
  - intros s x y R v; reflexivity.
  - intros s t x R v. apply pdiff_comm_val.
Qed.

Global Instance PolySubs : @SubsLaws PolyOps.
Proof.
  constructor.
  - intros s r r' Hr x y H R v. cbn. rewrite !psubs_val, (H R _), (Hr R v). reflexivity.
  - intros; intros R v; reflexivity.
  - intros; intros R v; reflexivity.
  - intros; intros R v; reflexivity.
  - intros s r R v; cbn. rewrite String.eqb_refl. reflexivity.
  - intros s t r H R v; cbn. apply String.eqb_neq in H. rewrite H. reflexivity.
  - intros s t r x R v. apply psubs_chain_val.
  - intros s t r r' x Hne Hfree R v. change (@ksub1 PolyOps) with psubs in *.
    specialize (Hfree (psubs s r r') R v). rewrite !psubs_val in Hfree.
    rewrite !psubs_val. apply peval_ext. intros u. cbn beta.
    destruct (String.eqb_spec t u) as [->|Htu].
    + destruct (String.eqb_spec s u) as [->|_]; [congruence|]. rewrite ?psubs_val. reflexivity.
    + destruct (String.eqb_spec s u) as [->|_]; [|reflexivity]. first [exact Hfree|symmetry; exact Hfree].
  - intros s t r x Hne Hfree R v. change (@ksub1 PolyOps) with psubs in *. change (@ksym PolyOps) with PV in *.
    assert (F : forall w : string -> car R, peval R w x = peval R (fun u => if String.eqb t u then c0 R else w u) x).
    { intros w. rewrite <- (Hfree R w). change (@k0 PolyOps) with (PC 0%Q). rewrite psubs_val. cbn [peval].
      rewrite cinj_0. reflexivity. }
    rewrite !psubs_val. rewrite (F (fun u => if String.eqb s u then _ else _)).
    rewrite (F (fun u => if String.eqb s u then peval R v r else v u)).
    apply peval_ext. intros u. cbn [peval].
    destruct (String.eqb_spec t u) as [->|Htu]; [reflexivity|].
    destruct (String.eqb_spec s u) as [->|_]; [|reflexivity]. rewrite String.eqb_refl. reflexivity.
Qed.

Global Instance PolySym : @SymLaws PolyOps.
Proof.
  constructor.
  - intros s R v; cbn. rewrite String.eqb_refl. reflexivity.
  - intros s t H R v; cbn. apply String.eqb_neq in H. rewrite H. reflexivity.
Qed.

Lemma pisz_sub_eq a b : pisz (PSub a b) = true -> peq a b.
Proof.
  intros H R v. apply pisz_ok in H. specialize (H R v). cbn in H. rewrite cinj_0 in H.
  assert (G := cring R). 
  transitivity (cadd R (csub R (peval R v a) (peval R v b)) (peval R v b)).
  - destruct G as [H1 H2 H3 _ _ _ _ H4 H5]. rewrite H4. rewrite <- H3. rewrite (H2 (copp R _)). rewrite H5. rewrite H2, H1. reflexivity.
  - rewrite H. destruct G as [H1 _ _ _ _ _ _ _ _]. apply H1.
Qed.

Lemma plsum_lsum {X} (l : list X) f : @lsum PolyOps X l f = plsum l f.
Proof. induction l as [|x l IH]; cbn; [reflexivity|]. rewrite IH; reflexivity. Qed.

Global Instance PolyDet : @DetLaws PolyOps.
Proof.
  constructor. intros n m _ H. cbn in H. cbn. destruct (pminv n m) as [r|]; [|discriminate].
  exists r. reflexivity.
Qed.

Global Instance PolyClean : @CleanLaws PolyOps.
Proof.
  constructor. intros e. exists (PC 1%Q), (PC 1%Q).
  assert (G := @kring PolyOps PolyLaws). destruct G as [_ _ _ H1 _ _ _ _ _]. split; [apply H1|].
  etransitivity; [apply psimp_ok|]. symmetry. apply H1.
Qed.

Global Instance PolyInv : @InvLaws PolyOps.
Proof.
  assert (G : forall n m r, pminv n m = Some r -> pinv_check n m r = true).
  { intros n m r H. unfold pminv in H.
    destruct (norm (pdet n (prows n m))) as [|[c [|s k]] [|t p]]; try discriminate.
    destruct (pinv_check n m (pcand n m c)) eqn:E; [|discriminate]. injection H as <-. exact E. }
  assert (G2 : forall n m r, pinv_check n m r = true -> forall i j, i < n -> j < n ->
     peq (plsum (seq 0 n) (fun k => PMul (pmat_at n r i k) (pmat_at n m k j))) (if i =? j then PC 1%Q else PC 0%Q) /\
     peq (plsum (seq 0 n) (fun k => PMul (pmat_at n m i k) (pmat_at n r k j))) (if i =? j then PC 1%Q else PC 0%Q)).
  { intros n m r H i j Hi Hj. unfold pinv_check in H. apply andb_prop in H as [_ H].
    rewrite forallb_forall in H. specialize (H i). rewrite forallb_forall in H.
    assert (Hin : In i (seq 0 n)) by (apply in_seq; lia). specialize (H Hin j).
    assert (Hjn : In j (seq 0 n)) by (apply in_seq; lia). specialize (H Hjn).
    apply andb_prop in H as [H1 H2]. split; apply pisz_sub_eq; assumption. }
  constructor.
  - intros n m r _ H. apply G in H. unfold pinv_check in H. apply andb_prop in H as [H _].
    apply Nat.eqb_eq in H. exact H.
  - intros n m r _ H i j Hi Hj. unfold nsum. rewrite plsum_lsum.
    destruct (G2 n m r (G n m r H) i j Hi Hj) as [H1 _]. exact H1.
  - intros n m r _ H i j Hi Hj. unfold nsum. rewrite plsum_lsum.
    destruct (G2 n m r (G n m r H) i j Hi Hj) as [_ H2]. exact H2.
Qed.

(** Different values in the rationals refute equality. *)
Lemma peq_Qc a b (v : string -> Qc) : peq a b -> peval Qc_alg v a = peval Qc_alg v b.
Proof. intros H. apply (H Qc_alg v). Qed.

(** Raw view of a result, for evaluation. *)
From Verif Require Import Arr.
Definition rd (r : res (@arr PolyOps)) : option (list nat * list pexp) :=
  match r with Ok a => Some (shape a, data a) | Err _ => None end.

Lemma rd_ok r s d : rd r = Some (s, d) -> r = Ok (@mkArr PolyOps s d).
Proof. destruct r as [[s' d']|e]; cbn; [|discriminate]. intros H. injection H as -> ->. reflexivity. Qed.

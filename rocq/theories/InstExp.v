(** A component algebra with units that are not constant: polynomials in symbols, where the
    symbol "exp:x" stands for exp(x) and "inv:x" for exp(-x).  It carries concrete metrics
    whose volume element depends on the coordinates. *)
From Coq Require Import QArith Qcanon Ascii.
From Verif Require Import Alg Inst.
Local Open Scope nat_scope.

Definition ex_ (s : string) : string := ("exp:" ++ s)%string.
Definition in_ (s : string) : string := ("inv:" ++ s)%string.

(** exp(-x) for exp(x) and the other way round *)
Definition partner (t : string) : option string :=
  match t with
  | String "e"%char (String "x"%char (String "p"%char (String ":"%char s))) => Some (in_ s)
  | String "i"%char (String "n"%char (String "v"%char (String ":"%char s))) => Some (ex_ s)
  | _ => None
  end.

(** Equal in every commutative algebra in which exp(x) and exp(-x) are inverse to each other. *)
Definition units (R : calg) (v : string -> car R) : Prop :=
  forall s, cmul R (v (ex_ s)) (v (in_ s)) = c1 R.
Definition eeq (a b : pexp) : Prop := forall R v, units R v -> peval R v a = peval R v b.

Definition dsym (s t : string) : pexp :=
  if String.eqb t (ex_ s) then PV t
  else if String.eqb t (in_ s) then POpp (PV t)
  else if String.eqb s t then match partner t with Some _ => PC 0%Q | None => PC 1%Q end
  else PC 0%Q.
Fixpoint ediff (s : string) (e : pexp) : pexp :=
  match e with
  | PC _ => PC 0%Q
  | PV t => dsym s t
  | PAdd a b => PAdd (ediff s a) (ediff s b)
  | PMul a b => PAdd (PMul (ediff s a) b) (PMul a (ediff s b))
  | PSub a b => PSub (ediff s a) (ediff s b)
  | POpp a => POpp (ediff s a)
  end.

(** Normal form: that of Inst.v with exp(x) exp(-x) cancelled. *)
Fixpoint take_out (t : string) (m : mono) : option mono :=
  match m with
  | [] => None
  | x :: m' => if String.eqb t x then Some m' else option_map (cons x) (take_out t m')
  end.
Definition eins (x : string) (m : mono) : mono :=
  match partner x with
  | Some y => match take_out y m with Some m' => m' | None => mono_ins x m end
  | None => mono_ins x m
  end.
Definition ecancel (m : mono) : mono := fold_right eins [] m.
Definition enorm (e : pexp) : poly :=
  fold_right (fun t p => poly_add1 (fst t) (ecancel (snd t)) p) [] (norm e).
Definition esimp (e : pexp) : pexp := poly_exp (enorm e).
Definition eisz (e : pexp) : bool := match enorm e with [] => true | _ => false end.

Fixpoint einverse (m : mono) : option mono :=
  match m with
  | [] => Some []
  | x :: m' => match partner x, einverse m' with Some y, Some r => Some (y :: r) | _, _ => None end
  end.
Definition einv_check (n : nat) (m r : list pexp) : bool :=
  (length r =? n * n) &&
  forallb (fun i => forallb (fun j =>
    eisz (PSub (plsum (seq 0 n) (fun k => PMul (pmat_at n r i k) (pmat_at n m k j)))
               (if i =? j then PC 1%Q else PC 0%Q)) &&
    eisz (PSub (plsum (seq 0 n) (fun k => PMul (pmat_at n m i k) (pmat_at n r k j)))
               (if i =? j then PC 1%Q else PC 0%Q))) (seq 0 n)) (seq 0 n).
Definition eminv (n : nat) (m : list pexp) : option (list pexp) :=
  match enorm (pdet n (prows n m)) with
  | [(c, k)] =>
    match einverse k with
    | Some k' => let r := map (fun e => esimp (PMul (mono_exp k') e)) (pcand n m c) in
                 if einv_check n m r then Some r else None
    | None => None
    end
  | _ => None
  end.

Definition ExpOps : AlgOps := {|
  K := pexp; keq := eeq; k0 := PC 0%Q; k1 := PC 1%Q; kadd := PAdd; kmul := PMul; ksub := PSub;
  kopp := POpp; kinvn := fun n => PC (/ inject_Z (Z.of_nat n))%Q;
  simp := esimp; kisz := eisz; ksym := PV; kdiff := ediff; ksub1 := psubs; minv := eminv;
  mdet0 := fun n m => match eminv n m with Some _ => false | None => true end;
  kclean := esimp
|}.

Lemma partner_units (R : calg) v x y : units R v -> partner x = Some y -> cmul R (v x) (v y) = c1 R.
Proof.
  intros U H. assert (C : forall a b : car R, cmul R a b = cmul R b a) by (intros; destruct (cring R); auto).
  unfold partner in H.
  destruct x as [|[[][][][][][][][]] x]; try discriminate;
  destruct x as [|[[][][][][][][][]] x]; try discriminate;
  destruct x as [|[[][][][][][][][]] x]; try discriminate;
  destruct x as [|[[][][][][][][][]] x]; try discriminate; injection H as <-; [|rewrite C]; apply U.
Qed.

Section Norm.
Variable R : calg.
Variable v : string -> car R.
Hypothesis U : units R v.
Add Ring Rring4 : (cring R).
Notation mval := (mono_val R v).

Lemma take_out_val t m m' : take_out t m = Some m' -> mval m = cmul R (v t) (mval m').
Proof.
  revert m'. induction m as [|x m IH]; intros m' H; cbn [take_out] in H; [discriminate|].
  destruct (String.eqb_spec t x) as [->|_]; [injection H as <-; reflexivity|].
  destruct (take_out t m) as [k|]; [|discriminate]. injection H as <-. cbn [mono_val]. rewrite (IH k eq_refl). ring.
Qed.
Lemma eins_val x m : mval (eins x m) = cmul R (v x) (mval m).
Proof.
  unfold eins. destruct (partner x) as [y|] eqn:E; [|apply mono_ins_val].
  destruct (take_out y m) as [m'|] eqn:E2; [|apply mono_ins_val].
  rewrite (take_out_val _ _ _ E2). transitivity (cmul R (cmul R (v x) (v y)) (mval m')); [|ring].
  rewrite (partner_units R v x y U E). ring.
Qed.
Lemma ecancel_val m : mval (ecancel m) = mval m.
Proof. induction m as [|x m IH]; cbn [ecancel fold_right mono_val]; [reflexivity|]. rewrite eins_val. f_equal. exact IH. Qed.
Lemma enorm_val e : poly_val R v (enorm e) = peval R v e.
Proof.
  rewrite <- norm_val. unfold enorm. induction (norm e) as [|t p IH]; cbn [fold_right poly_val]; [reflexivity|].
  rewrite poly_add1_val, IH, ecancel_val. reflexivity.
Qed.
Lemma ediff_comm_val s t e : peval R v (ediff s (ediff t e)) = peval R v (ediff t (ediff s e)).
Proof.
  induction e as [q|u|a IHa b IHb|a IHa b IHb|a IHa b IHb|a IHa]; cbn [peval ediff]; try congruence; [|rewrite IHa, IHb; ring].
  unfold dsym. destruct (String.eqb_spec u (ex_ s)) as [Hs|Hs], (String.eqb_spec u (ex_ t)) as [Ht|Ht].
  - assert (s = t) by (subst u; injection Ht as <-; reflexivity). subst t. reflexivity.
  - assert (E1 : String.eqb u (in_ t) = false) by (apply String.eqb_neq; subst u; discriminate). rewrite E1.
    assert (E2 : forall x y, ediff x (if String.eqb t u then match partner u with Some _ => PC 0%Q | None => PC 1%Q end else PC 0%Q) = y -> y = PC 0%Q).
    { intros x y <-. destruct (String.eqb t u); [destruct (partner u)|]; reflexivity. }
    rewrite (E2 s _ eq_refl). cbn [ediff]. unfold dsym. apply String.eqb_neq in Ht. rewrite Ht, E1.
    destruct (String.eqb t u); [|reflexivity]. subst u. reflexivity.
  - assert (E1 : String.eqb u (in_ s) = false) by (apply String.eqb_neq; subst u; discriminate). rewrite E1.
    assert (E2 : forall x y, ediff x (if String.eqb s u then match partner u with Some _ => PC 0%Q | None => PC 1%Q end else PC 0%Q) = y -> y = PC 0%Q).
    { intros x y <-. destruct (String.eqb s u); [destruct (partner u)|]; reflexivity. }
    rewrite (E2 t _ eq_refl). cbn [ediff]. unfold dsym. apply String.eqb_neq in Hs. rewrite Hs, E1.
    destruct (String.eqb s u); [|reflexivity]. subst u. reflexivity.
  - destruct (String.eqb_spec u (in_ s)) as [Is|Is], (String.eqb_spec u (in_ t)) as [It|It].
    + assert (s = t) by (subst u; injection It as <-; reflexivity). subst t. reflexivity.
    + assert (E2 : forall x y, ediff x (if String.eqb t u then match partner u with Some _ => PC 0%Q | None => PC 1%Q end else PC 0%Q) = y -> y = PC 0%Q).
      { intros x y <-. destruct (String.eqb t u); [destruct (partner u)|]; reflexivity. }
      rewrite (E2 s _ eq_refl). cbn [ediff]. unfold dsym. apply String.eqb_neq in Ht, It. rewrite Ht, It.
      destruct (String.eqb t u); [|cbn [peval]; rewrite cinj_0; ring]. subst u. cbn [partner in_ append peval]. rewrite cinj_0; ring.
    + assert (E2 : forall x y, ediff x (if String.eqb s u then match partner u with Some _ => PC 0%Q | None => PC 1%Q end else PC 0%Q) = y -> y = PC 0%Q).
      { intros x y <-. destruct (String.eqb s u); [destruct (partner u)|]; reflexivity. }
      rewrite (E2 t _ eq_refl). cbn [ediff]. unfold dsym. apply String.eqb_neq in Hs, Is. rewrite Hs, Is.
      destruct (String.eqb s u); [|cbn [peval]; rewrite cinj_0; ring]. subst u. cbn [partner in_ append peval]. rewrite cinj_0; ring.
    + assert (E2 : forall x b, ediff x (if String.eqb b u then match partner u with Some _ => PC 0%Q | None => PC 1%Q end else PC 0%Q) = PC 0%Q).
      { intros x b. destruct (String.eqb b u); [destruct (partner u)|]; reflexivity. }
      rewrite !E2. reflexivity.
Qed.

(** The derivative is the dual part of the value. *)
Definition dval (s t : string) : car (dual R) := (v t, peval R v (dsym s t)).
Lemma dval_units s : units (dual R) (dval s).
Proof.
  intros t. change ((cmul R (v (ex_ t)) (v (in_ t)),
    cadd R (cmul R (peval R v (dsym s (ex_ t))) (v (in_ t))) (cmul R (v (ex_ t)) (peval R v (dsym s (in_ t))))) = (c1 R, c0 R)).
  assert (E1 : dsym s (ex_ t) = if String.eqb t s then PV (ex_ t) else PC 0%Q).
  { change (dsym s (ex_ t)) with (if String.eqb t s then PV (ex_ t) else if String.eqb s (ex_ t) then PC 0%Q else PC 0%Q).
    destruct (String.eqb t s), (String.eqb s (ex_ t)); reflexivity. }
  assert (E2 : dsym s (in_ t) = if String.eqb t s then POpp (PV (in_ t)) else PC 0%Q).
  { change (dsym s (in_ t)) with (if String.eqb t s then POpp (PV (in_ t)) else if String.eqb s (in_ t) then PC 0%Q else PC 0%Q).
    destruct (String.eqb t s), (String.eqb s (in_ t)); reflexivity. }
  rewrite E1, E2. f_equal; [apply U|]. destruct (String.eqb t s); cbn [peval]; rewrite ?cinj_0; ring.
Qed.
Lemma eval_dual s e : peval (dual R) (dval s) e = (peval R v e, peval R v (ediff s e)).
Proof.
  induction e as [q|t|a IHa b IHb|a IHa b IHb|a IHa b IHb|a IHa]; cbn [peval ediff].
  - cbn. rewrite cinj_0. reflexivity.
  - reflexivity.
  - rewrite IHa, IHb; reflexivity.
  - rewrite IHa, IHb; reflexivity.
  - rewrite IHa, IHb; reflexivity.
  - rewrite IHa; reflexivity.
Qed.
End Norm.

Lemma esimp_ok e : eeq (esimp e) e.
Proof. intros R v U. unfold esimp. rewrite poly_exp_val. apply enorm_val, U. Qed.
Lemma eisz_ok e : eisz e = true -> eeq e (PC 0%Q).
Proof.
  unfold eisz. intros H R v U. rewrite <- (enorm_val R v U). destruct (enorm e); [|discriminate].
  cbn. symmetry; apply cinj_0.
Qed.

#[export] Instance ExpLaws : @AlgLaws ExpOps.
Proof.
  constructor.
  - constructor.
    + intros a R v U; reflexivity.
    + intros a b H R v U; symmetry; apply H, U.
    + intros a b c H1 H2 R v U; rewrite (H1 R v U); apply H2, U.
  - intros a b H c d H' R v U; cbn; rewrite (H R v U), (H' R v U); reflexivity.
  - intros a b H c d H' R v U; cbn; rewrite (H R v U), (H' R v U); reflexivity.
  - intros a b H R v U; cbn; rewrite (H R v U); reflexivity.
  - constructor; intros; intros R v U; cbn; rewrite ?cinj_0, ?cinj_1.
    all: destruct (cring R); auto.
  - exact esimp_ok.
  - exact eisz_ok.
  - intros n Hn R v U. assert (E : forall k, @knat ExpOps k = @knat PolyOps k) by (induction k as [|k IH]; [reflexivity|]; change (PAdd (PC 1%Q) (@knat ExpOps k) = PAdd (PC 1%Q) (@knat PolyOps k)); rewrite IH; reflexivity).
    rewrite E. exact (@kinvn_ok PolyOps PolyLaws n Hn R v).
Qed.

#[export] Instance ExpDiff : @DiffLaws ExpOps.
Proof.
  constructor.
  - intros s a b H R v U. assert (H2 := H (dual R) (dval R v s) (dval_units R v U s)).
    rewrite !eval_dual in H2. cbn. congruence.
  - intros s x y R v U; reflexivity.
  - intros s x y R v U; reflexivity.
  - intros s t x R v U. apply ediff_comm_val.
Qed.

(** Different values in the rationals refute equality; with exp(x) = 1 everywhere, for example. *)
Lemma eeq_Qc a b (v : string -> Qc) : eeq a b -> (forall s, (v (ex_ s) * v (in_ s))%Qc = 1%Qc) -> peval Qc_alg v a = peval Qc_alg v b.
Proof. intros H U. apply (H Qc_alg v U). Qed.

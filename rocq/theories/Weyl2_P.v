(** The run of calc_weyl_tensor in a session with one metric. *)
From Verif Require Import Alg Alg_P Arr Arr_P Spec UtilsM Utils_P Arr2_P Act_P RL_P TensorM WorldM SpecWorld World_P Registry_P CalcM SpecCalc Keep_P Calc_P Calc2_P Calc3_P Calc4_P Trace_P Run_P CurvM SpecCurv Form_P Form2_P CurvRun_P CurvRun2_P Weyl_P.
From Verif Require History_P.
Local Open Scope nat_scope.

Section WeylRun.
Context {A : AlgOps} {L : AlgLaws A} {D : DiffLaws A}.
Add Ring Kring : kring (setoid keq_equiv kring_ext).
Variables (n : nat) (m c : oid) (name : string) (xs : list string) (g gi : nat -> nat -> K).
Notation session w := (metric_session w n m c name xs g gi).
Notation value w := (tensor_value w n m c).
Notation known_all := (known_all n m c name xs g gi).
Notation Rie := (Rie n xs g gi).
Notation Ric := (Ric n xs g gi).
Notation Sca := (Sca n xs g gi).
Notation Wey := (Wey n xs g gi).

(** The formula, from the Riemann tensor, the Ricci tensor and the scalar to the end. *)
Definition weyl_formula (name : string) (rie ric sc : oid) (f1 f2 : M K) : M oid :=
    let! r0 := calc_call rie ["i"; "k"; "l"; "m"]%string in
    let! f := f1 in
    let pair (s1 : list string) (s2 : list string) : M calc :=
      let! a := calc_call ric s1 in let! b := calc_call m s2 in matmul0 a b in
    let! y := pair ["i"; "m"]%string ["k"; "l"]%string in
    let! y' := pair ["i"; "l"]%string ["k"; "m"]%string in
    let! y := calc_sub y (OCalc y') in
    let! y' := pair ["k"; "l"]%string ["i"; "m"]%string in
    let! y := calc_add y (OCalc y') in
    let! y' := pair ["k"; "m"]%string ["i"; "l"]%string in
    let! y := calc_sub y (OCalc y') in
    let! y := calc_mul y (OScalar f) in
    let! x := calc_add r0 (OCalc y) in
    let! f := f2 in
    let! s := calc_call sc [] in
    let! a := calc_call m ["i"; "l"]%string in
    let! b := calc_call m ["k"; "m"]%string in
    let! z := matmul0 a b in
    let! a := calc_call m ["i"; "m"]%string in
    let! b := calc_call m ["k"; "l"]%string in
    let! z' := matmul0 a b in
    let! z := calc_sub z (OCalc z') in
    let! z := matmul0 s z in
    let! z := calc_mul z (OScalar f) in
    let! x := calc_add x (OCalc z) in
    let! r := run_calc x "Result" "" ["i"; "k"; "l"; "m"]%string in
    let! t := publish m r (Some [-1; -1; -1; -1]%Z) name [-1; -1; -1; -1]%Z "C" in
    finish_calc ric ;;
    mret t.

Lemma nsum_inverse (H : inverse_fun n g gi) i (F : nat -> K) : i < n ->
  keq (nsum n (fun p => kmul (g i p) (nsum n (fun q => kmul (gi p q) (F q))))) (F i).
Proof.
  intros Hi.
  transitivity (nsum n (fun q => kmul (nsum n (fun p => kmul (g i p) (gi p q))) (F q))).
  - rewrite (nsum_ext n _ (fun p => nsum n (fun q => kmul (kmul (g i p) (gi p q)) (F q)))).
    2:{ intros p Hp. unfold nsum. rewrite <- lsum_scale. apply lsum_ext. intros q _. ring. }
    unfold nsum. rewrite lsum_swap. apply lsum_ext. intros q _. rewrite <- lsum_scale_r. apply lsum_ext. intros p _. ring.
  - rewrite (nsum_ext n _ (fun q => kmul (kdelta i q) (F q))).
    + apply nsum_delta_l, Hi.
    + intros q Hq. apply kmul_proper; [|reflexivity]. apply (proj1 H i q Hi Hq).
Qed.
Lemma reach_assoc {X Y Z} w (p : M X) (k : X -> M Y) (k2 : Y -> M Z) R :
  reach w (mbind p (fun x => mbind (k x) k2)) R -> reach w (mbind (mbind p k) k2) R.
Proof. intros (x & w' & E & H). exists x, w'. split; [|exact H]. rewrite History_P.bind_assoc. exact E. Qed.

Lemma reach_ret {X Y} w (x : X) (k : X -> M Y) R : reach w (k x) R -> reach w (mbind (mret x) k) R.
Proof. exact (fun H => H). Qed.
Lemma reach_eq {X} w (p : M X) (R : X -> world -> Prop) x w' : p w = (Ok x, w') -> R x w' -> reach w p R.
Proof. intros E H. exists x, w'. auto. Qed.
Ltac muls HS T1 T2 := eapply reach_bind; [eapply (r_scalar _ _ _ _ _ _ _ _ _ _ _ _ _ _ _ _ _ HS); [eassumption|exact T1|exact T2|reflexivity]|]; new; cbn [app] in *.

Lemma weyl_formula_run w ric rie sc nm : session w -> value w rie [1; -1; -1; -1]%Z (at4 Rie) -> value w ric [-1; -1]%Z (at2 Ric) -> value w sc [] (fun _ => Sca) ->
  In ric (insts w) -> ~ used w ric -> ~ named w "TEMP" ric -> ric <> m -> ric <> c -> nm <> "TEMP"%string ->
  exists t r w4 w', weyl_formula nm rie ric sc (mret (kinvn (n - 2))) (mret (kinvn ((n - 2) * (n - 1)))) w = (Ok t, w') /\
    good w4 /\ adds m c [r; t] w w4 /\ removed w4 ric w' /\ ~ used w4 ric /\ good w' /\ In t (insts w4) /\ In r (insts w4) /\ named w4 nm t /\ named w4 "Result" r /\
    value w4 t [-1; -1; -1; -1]%Z (at4 Wey) /\ length (heap w) <= t /\ length (heap w) <= r.
Proof.
  intros HS Vrie Vric Vsc I1 I2 I3 I4 I5 Hnm. assert (F := form_base w n m c name xs g gi HS). assert (Vm := metric_at n m c name xs g gi w w HS F).
  enough (H : reach w (weyl_formula nm rie ric sc (mret (kinvn (n - 2))) (mret (kinvn ((n - 2) * (n - 1))))) (fun t w' => exists r w4,
    good w4 /\ adds m c [r; t] w w4 /\ removed w4 ric w' /\ ~ used w4 ric /\ good w' /\ In t (insts w4) /\ In r (insts w4) /\ named w4 nm t /\ named w4 "Result" r /\
    value w4 t [-1; -1; -1; -1]%Z (at4 Wey) /\ length (heap w) <= t /\ length (heap w) <= r)).
  { destruct H as (t & w' & E & r & w4 & H). exists t, r, w4, w'. auto. }
  unfold weyl_formula. call HS Vrie. apply reach_ret. cbv zeta.
  apply reach_assoc. call HS Vric. apply reach_assoc. call HS Vm. mul0 HS T0 T1. clear T0 T1.
  apply reach_assoc. call HS Vric. apply reach_assoc. call HS Vm. mul0 HS T0 T1. clear T0 T1. sum HS T2 T3. clear T2 T3.
  apply reach_assoc. call HS Vric. apply reach_assoc. call HS Vm. mul0 HS T1 T2. clear T1 T2. sum HS T0 T3. clear T0 T3.
  apply reach_assoc. call HS Vric. apply reach_assoc. call HS Vm. mul0 HS T0 T2. clear T0 T2. sum HS T1 T3. clear T1 T3.
  eapply reach_bind; [eapply (runs_scale_new _ _ _ _ _ _ _ _ HS); [eassumption|exact T0]|]. new. clear T0.
  eapply reach_bind; [eapply (runs_add_raise _ _ _ _ _ _ _ _ HS); [eassumption|exact T|exact T1|reflexivity|reflexivity]|]. new. clear T T1.
  apply reach_ret. call HS Vsc. call HS Vm. call HS Vm. mul0 HS T1 T2. clear T1 T2.
  call HS Vm. call HS Vm. mul0 HS T1 T2. clear T1 T2. sum HS T3 T4. clear T3 T4.
  muls HS T T1. clear T T1.
  eapply reach_bind; [eapply (runs_scale_new _ _ _ _ _ _ _ _ HS); [eassumption|exact T2]|]. new. clear T2.
  eapply reach_bind; [eapply (runs_add_raise _ _ _ _ _ _ _ _ HS); [eassumption|exact T0|exact T|reflexivity|reflexivity]|]. new. clear T T0.
  destruct (weyl_end w n m c name xs g gi HS w14 x27 _ _ ["i"; "k"; "l"; "m"]%string [-1; -1; -1]%Z nm "C" (at4 Wey) ric F0 T1 eq_refl eq_refl Hnm ltac:(discriminate)) as (t & r & w5' & w6' & E & R); try assumption.
  - clear - HS L D. intros p idx Hp [Hl Hr]. destruct idx as [|k [|l [|q [|]]]]; try discriminate. ready.
    assert (Hinv : inverse_fun n g gi) by apply HS.
    unfold Wey, weyl_of, lowered.
    transitivity (kadd (kadd (nsum n (fun j => kmul (g p j) (Rie j k l q)))
      (nsum n (fun j => kmul (g p j) (nsum n (fun a => kmul (gi j a) (kmul (kinvn (n - 2))
         (ksub (kadd (ksub (kmul (Ric a q) (g k l)) (kmul (Ric a l) (g k q))) (kmul (Ric k l) (g a q))) (kmul (Ric k q) (g a l)))))))))
      (nsum n (fun j => kmul (g p j) (nsum n (fun a => kmul (gi j a) (kmul (kinvn ((n - 2) * (n - 1))) (kmul Sca (ksub (kmul (g a l) (g k q)) (kmul (g a q) (g k l)))))))))).
    + unfold nsum at 1 4 5 7. rewrite <- !lsum_add. apply lsum_ext. intros j _. ring.
    + rewrite (nsum_inverse Hinv p (fun a => kmul (kinvn (n - 2)) (ksub (kadd (ksub (kmul (Ric a q) (g k l)) (kmul (Ric a l) (g k q))) (kmul (Ric k l) (g a q))) (kmul (Ric k q) (g a l)))) Hp).
      rewrite (nsum_inverse Hinv p (fun a => kmul (kinvn ((n - 2) * (n - 1))) (kmul Sca (ksub (kmul (g a l) (g k q)) (kmul (g a q) (g k l))))) Hp).
      reflexivity.
  - exists t, w6'. split; [exact E|]. exists r, w5'. exact R.
Qed.

(** *** The whole function *)
Lemma results_length7 s i h : In (s, i, h) (results n xs g gi) -> 7 <= String.length s.
Proof. intros H. cbn in H. repeat (destruct H as [H|H]; [injection H as <- _ _; cbn; lia|]). destruct H. Qed.
Lemma suffix_not_short (a b s : string) : String.length s < String.length b -> (a ++ b)%string <> s.
Proof. intros H E. assert (E' := append_length a b). rewrite E in E'. lia. Qed.

Lemma value_removed w t w' j i h : removed w t w' -> j <> t -> value w j i h -> value w' j i h.
Proof. intros (_ & _ & H2 & H3) N (k & o & a & Hk & Nk & Ho & R). exists k, o, a. split; [rewrite H3; exact Hk|]. split; [exact Nk|]. split; [rewrite H2; auto|exact R]. Qed.
Lemma session_removed w t w' : session w -> good w' -> removed w t w' -> t <> m -> t <> c -> session w'.
Proof.
  intros HS (G1 & G2 & G3) Rm Nm Nc. assert (R : registry_ok w) by apply (session_good w n m c name xs g gi HS).
  assert (Hin := fun j => removed_in w t w' j (proj1 R) Rm). destruct Rm as (_ & H1 & H2 & H3).
  destruct HS as (_ & _ & _ & Hn & (Kc & oc & Hoc) & Ic & Ncn & Hx & Hm & Im & Nmn & Hs & Hv & o & G & Ho & R').
  assert (Ec : obj_of w' c = obj_of w c) by auto. assert (Em : obj_of w' m = obj_of w m) by auto.
  split; [exact G1|]. split; [exact G2|]. split; [exact G3|]. split; [exact Hn|]. split; [split; [rewrite H3; exact Kc|exists oc; rewrite Ec; exact Hoc]|].
  split; [apply Hin; auto|]. split; [intros (x & Hx' & E); apply Ncn; exists x; rewrite <- Ec; auto|]. split; [rewrite Ec; exact Hx|].
  split; [rewrite H3; exact Hm|]. split; [apply Hin; auto|]. split; [intros (x & Hx' & E); apply Nmn; exists x; rewrite <- Em; auto|]. split; [exact Hs|]. split; [exact Hv|].
  exists o, G. rewrite Em. auto.
Qed.
Lemma known_removed w t w' nm i h : NoDup (insts w) -> removed w t w' -> known w n m c nm i h -> known w' n m c nm i h.
Proof.
  intros Nd Rm Kn j Hj (o & Ho & En). apply (removed_in w t w' j Nd Rm) in Hj as [Hj N].
  apply (value_removed w t w' j i h Rm N). apply Kn; [exact Hj|]. exists o. destruct Rm as (_ & _ & H2 & _). rewrite <- H2 by exact N. auto.
Qed.

Definition weyl_names : list string := [(name ++ " Christoffel"); (name ++ " Riemann"); (name ++ " Ricci Tensor"); (name ++ " Ricci Scalar")]%string.
Definition only_ricci (w : world) (ric : oid) : Prop :=
  forall j, In j (insts w) -> named w (name ++ " Ricci Tensor") j -> (forall k, In k (insts w) -> named w (name ++ " Ricci Tensor") k -> k = j) -> j = ric.
Lemma cached_known w s compute j : session w -> In j (insts w) -> named w (name ++ s) j ->
  exists k, cached m s compute w = (Ok k, w) /\ In k (insts w) /\ named w (name ++ s) k.
Proof.
  intros HS Hj Hn. assert (HS' := HS). destruct HS' as (_ & I & _ & _ & _ & _ & _ & _ & Hm & Im & Nm & _ & _ & om & G & Hom & Enm & _).
  unfold cached. rewrite (bind_ok _ _ true w w) by (unfold isinstance; rewrite Hm; reflexivity). cbn [negb].
  rewrite (bind_ok _ _ om w w) by (apply getobj_ok, Hom). rewrite Enm. cbv zeta.
  destruct (first_named_spec w (name ++ s) (insts w)) as (r & E & Hr); [apply I|].
  rewrite (bind_ok _ _ r w w) by exact E. destruct r as [k|]; [|exfalso; apply (Hr j); assumption].
  exists k. split; [reflexivity|exact Hr].
Qed.
Lemma only_ricci_cached w w1 ric w2 : session w1 -> addsn m c [(name ++ " Christoffel"); (name ++ " Riemann")]%string w w1 -> calc_ricci m w1 = (Ok ric, w2) -> only_ricci w ric.
Proof.
  intros S1 (a1 & a2 & a3 & _) E j Hj (o & Ho & En) Hu. assert (Nt : o_name o <> "TEMP"%string) by (rewrite En; apply suffix_not_temp; cbn; lia).
  destruct (a2 j o Ho Nt) as (H1 & _ & H2).
  destruct (cached_known w1 " Ricci Tensor" (fun name =>
    let! rie := calc_riemann m in
    let! x := calc_call rie ["lambda"; "mu"; "lambda"; "nu"]%string in
    let! r := run_calc x "Result" "" [] in
    let! t := publish m r (Some [-1; -1]%Z) name [-1; -1]%Z "R" in
    finish_calc r ;;
    mret t) j S1 (H2 Hj)) as (k & Ek & Ik & Nk); [exists o; auto|].
  change (calc_ricci m w1 = (Ok k, w1)) in Ek. rewrite Ek in E. injection E as -> _. symmetry. destruct Nk as (ok & Hk & Enk).
  destruct (a3 ric Ik) as [[H3 H4]|(s & Hs & ok' & Hk' & Es)]; [apply Hu; [exact H3|exists ok; auto]|].
  exfalso. rewrite Hk in Hk'. injection Hk' as <-. rewrite Enk in Es. destruct Hs as [Hs|[Hs|[Hs|[]]]]; subst s.
  - apply (suffix_not_temp name " Ricci Tensor"); [cbn; lia|exact Es].
  - apply append_inj in Es. discriminate.
  - apply append_inj in Es. discriminate.
Qed.
(** What is computed before the formula. *)
Lemma weyl_prelude w : session w -> known_all w ->
  exists rie w1 ric w2 sc w3, calc_riemann m w = (Ok rie, w1) /\ calc_ricci m w1 = (Ok ric, w2) /\ calc_ricci_scalar m w2 = (Ok sc, w3) /\
    session w3 /\ known_all w3 /\ addsn m c weyl_names w w3 /\ In ric (insts w3) /\ named w3 (name ++ " Ricci Tensor") ric /\
    value w3 rie [1; -1; -1; -1]%Z (at4 Rie) /\ value w3 ric [-1; -1]%Z (at2 Ric) /\ value w3 sc [] (fun _ => Sca) /\ only_ricci w ric.
Proof.
  intros HS Ka. destruct (riemann_done n m c name xs g gi w HS Ka) as (rie & w1 & E1 & G1 & A1 & K1 & I1 & N1 & V1).
  assert (S1 := session_addsn n m c name xs g gi _ _ _ HS G1 A1).
  destruct (ricci_done n m c name xs g gi w1 S1 K1) as (ric & w2 & E2 & G2 & A2 & K2 & I2 & N2 & V2).
  assert (S2 := session_addsn n m c name xs g gi _ _ _ S1 G2 A2).
  destruct (scalar_done n m c name xs g gi w2 S2 K2) as (sc & w3 & E3 & G3 & A3 & K3 & I3 & N3 & V3).
  assert (S3 := session_addsn n m c name xs g gi _ _ _ S2 G3 A3).
  assert (T1 := not_temp name w1 " Riemann" rie ltac:(cbn; lia) N1). assert (T2 := not_temp name w2 " Ricci Tensor" ric ltac:(cbn; lia) N2).
  exists rie, w1, ric, w2, sc, w3. split; [exact E1|]. split; [exact E2|]. split; [exact E3|]. split; [exact S3|]. split; [exact K3|].
  assert (A12 := addsn_trans m c _ _ _ _ _ (proj1 (proj1 (proj2 G2))) A1 A2).
  split.
  { eapply addsn_mono; [|apply (addsn_trans m c _ _ _ _ _ (proj1 (proj1 (proj2 G3))) A12 A3)]. intros s Hs. unfold weyl_names. cbn [app In] in *. tauto. }
  assert (N2' := N2). destruct N2' as (o & Ho & En). assert (Nt : o_name o <> "TEMP"%string) by (intros E; apply T2; exists o; auto).
  destruct A3 as (a1 & a2 & a3). destruct (a2 ric o Ho Nt) as (Ho3 & _ & I3'). split; [apply I3', I2|]. split; [exists o; auto|].
  split; [|split; [|split; [exact V3|exact (only_ricci_cached w w1 ric w2 S1 A1 E2)]]].
  - apply (value_adds m c _ _ _ _ _ _ _ (conj a1 (conj a2 a3))).
    + intros (x & Hx & Ex). assert (A2' := A2). destruct A2' as (_ & b2 & _). destruct N1 as (o1 & Ho1 & En1).
      destruct (b2 rie o1 Ho1) as (H & _); [intros E; apply T1; exists o1; auto|]. rewrite H in Hx. injection Hx as <-. apply T1. exists o1; auto.
    + apply (value_adds m c _ _ _ _ _ _ _ A2 T1), V1.
  - apply (value_adds m c _ _ _ _ _ _ _ (conj a1 (conj a2 a3)) T2), V2.
Qed.

Lemma weyl_start w : session w -> (forall j, In j (insts w) -> ~ named w (name ++ " Weyl Tensor") j) ->
  calc_weyl m w = (let! rie := calc_riemann m in let! ric := calc_ricci m in let! sc := calc_ricci_scalar m in
     weyl_formula (name ++ " Weyl Tensor") rie ric sc (inverse_int (Z.of_nat n - 2)) (inverse_int ((Z.of_nat n - 2) * (Z.of_nat n - 1)))) w.
Proof.
  intros HS Nw. assert (HS' := HS). destruct HS' as (_ & I & _ & _ & (Kc & oc & dc & x & Hoc & Hd & Hx & Lx) & _ & _ & _ & Hm & Im & Nm & _ & _ & om & G & Hom & Enm & _ & _ & _ & (Cm & _) & _).
  unfold calc_weyl, cached. rewrite (bind_ok _ _ true w w) by (unfold isinstance; rewrite Hm; reflexivity). cbn [negb].
  rewrite (bind_ok _ _ om w w) by (apply getobj_ok, Hom). rewrite Enm. cbv zeta.
  destruct (first_named_spec w (name ++ " Weyl Tensor") (insts w)) as (r & E & Hr); [apply I|].
  rewrite (bind_ok _ _ r w w) by exact E. destruct r as [j|]; [exfalso; apply (Nw j); apply Hr|].
  rewrite (bind_ok _ _ om w w) by (apply getobj_ok, Hom). rewrite (bind_ok _ _ c w w) by (apply mopt_ok, Cm).
  rewrite (bind_ok _ _ x w w).
  2:{ apply coord_components_spec. exists oc, dc. auto. }
  rewrite Lx. reflexivity.
Qed.

Lemma inverse_pos z k : z = Z.of_nat (S k) -> @inverse_int A z = mret (kinvn (S k)).
Proof.
  intros ->. unfold inverse_int. destruct (Z.eqb_spec (Z.of_nat (S k)) 0); [lia|]. destruct (Z.ltb_spec 0 (Z.of_nat (S k))); [|lia]. rewrite Nat2Z.id. reflexivity.
Qed.

(** No registered object uses the Ricci tensor. *)
Lemma ricci_unused w w3 ric : session w -> session w3 -> addsn m c weyl_names w w3 -> named w3 (name ++ " Ricci Tensor") ric -> value w3 ric [-1; -1]%Z (at2 Ric) ->
  (forall j, In j (insts w) -> named w (name ++ " Ricci Tensor") j -> ~ used w j) -> ~ used w3 ric /\ ric <> m /\ ric <> c.
Proof.
  intros HS S3 (_ & a2 & _ & _ & a5) (o & Ho & En) V Free.
  assert (Nm : ric <> m).
  { intros ->. destruct S3 as (_ & _ & _ & _ & _ & _ & _ & _ & _ & _ & _ & _ & _ & om & G & Hom & Enm & _). rewrite Hom in Ho. injection Ho as <-.
    assert (E := append_length name " Ricci Tensor"). rewrite <- En, Enm in E. cbn in E. lia. }
  assert (Nc : ric <> c).
  { intros ->. destruct V as (k & o' & a & Hk & Nk & _). destruct S3 as (_ & _ & _ & _ & (Kc & _) & _). congruence. }
  split; [|auto]. intros Hu. destruct (a5 ric Hu) as [Hw|[?|?]]; [|contradiction|contradiction].
  destruct HS as (_ & I & Tu & _). assert (Hin : In ric (insts w)) by (destruct Hw as (i & oi & H1 & _ & H2 & H3); apply (proj2 I i oi ric); assumption).
  assert (Hob := proj2 (proj1 I) ric Hin). destruct (obj_of w ric) as [o'|] eqn:Eo; [|congruence].
  destruct (string_dec (o_name o') "TEMP") as [Et|Nt]; [apply (Tu ric Hin); [exists o'; auto|exact Hw]|].
  destruct (a2 ric o' Eo Nt) as (H & _). rewrite Ho in H. injection H as <-. apply (Free ric Hin); [exists o; auto|exact Hw].
Qed.

(** The outcome for n >= 3: the tensor is right, the Ricci tensor is gone and an object called
    "Result" has come. *)
Definition weyl_outcome (w : world) : Prop :=
  exists t ric r w', calc_weyl m w = (Ok t, w') /\ session w' /\ known_all w' /\
    In t (insts w') /\ named w' (name ++ " Weyl Tensor") t /\ value w' t [-1; -1; -1; -1]%Z (at4 Wey) /\
    obj_of w' ric = None /\ ~ In ric (insts w') /\ In r (insts w') /\ named w' "Result" r /\ length (heap w) <= r /\
    (forall j, In j (insts w) -> named w (name ++ " Ricci Tensor") j -> (forall k, In k (insts w) -> named w (name ++ " Ricci Tensor") k -> k = j) -> j = ric) /\
    (forall j o, j <> ric -> obj_of w j = Some o -> o_name o <> "TEMP"%string ->
       obj_of w' j = Some o /\ cls_of w' j = cls_of w j /\ (In j (insts w) -> In j (insts w'))) /\
    (forall j, In j (insts w') -> (In j (insts w) /\ forall o, obj_of w' j = Some o -> obj_of w j = Some o) \/
       exists s, In s ("TEMP" :: "Result" :: (name ++ " Weyl Tensor") :: weyl_names)%string /\ named w' s j) /\
    (forall o, obj_of w ric = Some o -> o_name o <> "TEMP"%string -> cls_of w ric <> Some CCoordinates).

Lemma weyl_run w : session w -> known_all w -> 3 <= n -> (forall j, In j (insts w) -> ~ named w (name ++ " Weyl Tensor") j) ->
  (forall j, In j (insts w) -> named w (name ++ " Ricci Tensor") j -> ~ used w j) -> weyl_outcome w.
Proof.
  intros HS Ka Hn Nw Free. destruct (weyl_prelude w HS Ka) as (rie & w1 & ric & w2 & sc & w3 & E1 & E2 & E3 & S3 & K3 & A3 & I3 & N3 & V1 & V2 & V3 & Hu).
  destruct (ricci_unused w w3 ric HS S3 A3 N3 V2 Free) as (U3 & Nm & Nc).
  assert (T3 := not_temp name w3 " Ricci Tensor" ric ltac:(cbn; lia) N3).
  destruct (weyl_formula_run w3 ric rie sc (name ++ " Weyl Tensor") S3 V1 V2 V3 I3 U3 T3 Nm Nc) as (t & r & w4 & w' & E4 & G4 & A4 & Rm & U4 & G' & It & Ir & Nt & Nr & Vt & Lt & Lr).
  { apply suffix_not_temp. cbn. lia. }
  assert (S4 := session_adds w3 n m c name xs g gi S3 _ _ G4 A4).
  assert (R4 : registry_ok w4) by apply G4. assert (R3 : registry_ok w3) by apply (session_good w3 n m c name xs g gi S3).
  assert (Lric := registered_lt w3 ric R3 I3).
  assert (Hin := fun j => removed_in w4 ric w' j (proj1 R4) Rm).
  assert (K4 : known_all w4).
  { intros s i h Hs j Hj (o & Ho & En). assert (Lg := results_length7 _ _ _ Hs).
    destruct A4 as (b1 & b2 & b3 & b4 & b5). destruct (b3 j Hj) as [[H1 H2]|[[<-|[<-|[]]]|(o' & Ho' & E')]].
    - assert (Hw := H2 o Ho). assert (Ntj : o_name o <> "TEMP"%string) by (rewrite En; apply suffix_not_temp; lia).
      destruct (b2 j o Hw Ntj) as (H3 & H4 & _).
      destruct (K3 s i h Hs j H1) as (k & o' & a & X1 & X2 & X3 & X4); [exists o; auto|]. exists k, o', a. split; [congruence|]. split; [exact X2|].
      split; [congruence|exact X4].
    - exfalso. destruct Nr as (o' & Ho' & E'). rewrite Ho in Ho'. injection Ho' as <-. apply (suffix_not_short name s "Result"); [cbn; lia|congruence].
    - destruct Nt as (o' & Ho' & E'). rewrite Ho in Ho'. injection Ho' as <-. rewrite En in E'. apply append_inj in E'. subst s.
      destruct (results_unique n xs g gi " Weyl Tensor" i h [-1; -1; -1; -1]%Z (at4 Wey) Hs) as [-> ->]; [cbn; auto 10|exact Vt].
    - exfalso. rewrite Ho in Ho'. injection Ho' as <-. apply (suffix_not_temp name s); [lia|congruence]. }
  exists t, ric, r, w'. split; [|split; [|split; [|split; [|split; [|split; [|split; [|split; [|split; [|split; [|split; [|split; [|split; [|split]]]]]]]]]]]]].
  - rewrite (weyl_start w HS Nw), (bind_ok _ _ _ _ _ E1), (bind_ok _ _ _ _ _ E2), (bind_ok _ _ _ _ _ E3). cbv beta.
    destruct n as [|[|[|k]]]; try lia. replace (S (S (S k)) - 2) with (S k) in E4 by lia.
    replace (S k * (S (S (S k)) - 1)) with (S (k * (S (S k)) + S k)) in E4 by lia.
    rewrite (inverse_pos (Z.of_nat (S (S (S k))) - 2) k) by lia.
    rewrite (inverse_pos ((Z.of_nat (S (S (S k))) - 2) * (Z.of_nat (S (S (S k))) - 1)) (k * (S (S k)) + S k)) by lia. exact E4.
  - apply (session_removed w4 ric w' S4 G' Rm Nm Nc).
  - intros s i h Hs. apply (known_removed w4 ric w' _ _ _ (proj1 R4) Rm), (K4 s i h Hs).
  - apply Hin. split; [exact It|lia].
  - destruct Nt as (o & Ho & En). exists o. split; [|exact En]. destruct Rm as (_ & _ & H2 & _). rewrite H2 by lia. exact Ho.
  - apply (value_removed w4 ric w' t _ _ Rm); [lia|exact Vt].
  - apply Rm.
  - intros H. apply Hin in H. lia.
  - apply Hin. split; [exact Ir|lia].
  - destruct Nr as (o & Ho & En). exists o. split; [|exact En]. destruct Rm as (_ & _ & H2 & _). rewrite H2 by lia. exact Ho.
  - destruct A3 as (a1 & _). lia.
  - exact Hu.
  - intros j o Nj Ho Ntm. destruct A3 as (a1 & a2 & _). destruct (a2 j o Ho Ntm) as (H1 & H2 & H3).
    destruct A4 as (b1 & b2 & _). destruct (b2 j o H1 Ntm) as (H4 & H5 & H6). assert (Rm' := Rm). destruct Rm' as (_ & _ & H7 & H8).
    split; [rewrite H7 by exact Nj; exact H4|]. split; [rewrite H8; congruence|]. intros Hj. apply Hin. auto.
  - intros j Hj. apply Hin in Hj as [Hj Nj]. assert (Rm' := Rm). destruct Rm' as (_ & _ & H7 & H8). assert (R4j := proj2 R4 j Hj).
    assert (Hnm : forall s, named w4 s j -> named w' s j) by (intros s (o & Ho & Es); exists o; rewrite H7 by exact Nj; auto).
    destruct A4 as (b1 & b2 & b3 & _). destruct (b3 j Hj) as [[H1 H2]|[[<-|[<-|[]]]|(o' & Ho' & E')]].
    + destruct A3 as (a1 & a2 & a3 & _). destruct (a3 j H1) as [[H3 H4]|(s & Hs & o & Ho & Es)].
      * left. split; [exact H3|]. intros o Ho. rewrite H7 in Ho by exact Nj. auto.
      * right. exists s. split; [cbn [In] in *; tauto|]. apply Hnm. destruct (obj_of w4 j) as [o4|] eqn:E4'; [|congruence]. exists o4. split; [exact E4'|]. rewrite (H2 o4 eq_refl) in Ho. congruence.
    + right. exists "Result"%string. split; [cbn; auto|apply Hnm, Nr].
    + right. exists (name ++ " Weyl Tensor")%string. split; [cbn; auto|apply Hnm, Nt].
    + right. exists "TEMP"%string. split; [left; reflexivity|apply Hnm; exists o'; auto].
  - intros o Ho Ntm. destruct A3 as (a1 & a2 & _). destruct (a2 ric o Ho Ntm) as (_ & H5 & _). destruct V2 as (k & o' & a & X1 & X2 & _). congruence.
Qed.

(** Two dimensions. *)
Lemma weyl_two w : session w -> known_all w -> n = 2 -> (forall j, In j (insts w) -> ~ named w (name ++ " Weyl Tensor") j) ->
  exists w', calc_weyl m w = (Err EZeroDivision, w') /\ session w' /\ known_all w' /\ addsn m c weyl_names w w'.
Proof.
  intros HS Ka Hn Nw. destruct (weyl_prelude w HS Ka) as (rie & w1 & ric & w2 & sc & w3 & E1 & E2 & E3 & S3 & K3 & A3 & I3 & N3 & V1 & V2 & V3 & Hu).
  exists w3. split; [|auto]. rewrite (weyl_start w HS Nw), (bind_ok _ _ _ _ _ E1), (bind_ok _ _ _ _ _ E2), (bind_ok _ _ _ _ _ E3). cbv beta.
  assert (F := form_base w3 n m c name xs g gi S3). unfold weyl_formula.
  destruct (r_call w3 n m c name xs g gi S3 w3 rie ["i"; "k"; "l"; "m"]%string _ _ F V1 eq_refl eq_refl eq_refl) as (x & w4 & E4 & _ & _ & -> & _).
  rewrite (bind_ok _ _ _ _ _ E4). replace (Z.of_nat n - 2)%Z with 0%Z by lia. reflexivity.
Qed.
End WeylRun.

(** Concrete sessions with Lagrangians and geodesic equations. *)
From Coq Require Import QArith Qcanon Permutation.
From Verif Require Import Alg Alg_P Arr Arr_P Spec UtilsM Arr2_P Act_P TensorM Jacobian_P Inst Ex WorldM SpecWorld World_P Registry_P CalcM SpecCalc Calc_P CurvM SpecCurv GeodM SpecGeod Geod4_P ExWorld Witness_World_P Witness_History_P Witness_Calc_P Witness_Curv_P Witness_Tensor_P.
Local Open Scope nat_scope.

Lemma curves_none w n m c name xs g gi :
  names_free w (map (append name) [" Lagrangian"; " Geodesic From Lagrangian"; " Geodesic From Christoffel"; " Geodesic With Time Parameter"])%string = true ->
  @known_curves PolyOps n xs g gi w m c name.
Proof.
  intros H. assert (N := names_free_spec _ _ H). cbn [map] in N.
  assert (Kn : forall k s i P, In s (map (append name) [" Lagrangian"; " Geodesic From Lagrangian"; " Geodesic From Christoffel"; " Geodesic With Time Parameter"])%string ->
    @known_curve PolyOps n w m c k s i P).
  { intros k s i P Hs j Hj _ Hn. exfalso. apply (N s j Hs Hj Hn). }
  repeat split; apply Kn; cbn; auto 10.
Qed.

Ltac cut2 H := let H' := fresh "C" in apply andb_prop in H as [H H'].
Fixpoint nodupb (l : list string) : bool :=
  match l with [] => true | x :: l' => negb (existsb (String.eqb x) l') && nodupb l' end.
Lemma nodupb_spec l : nodupb l = true -> NoDup l.
Proof.
  induction l as [|x l IH]; intros H; [constructor|]. cbn in H. cut2 H. constructor; [|apply IH, C].
  intros Hin. apply negb_true_iff in H. apply not_true_iff_false in H. apply H. apply existsb_exists. exists x. split; [exact Hin|apply String.eqb_refl].
Qed.
Definition staticb (n : nat) (xs : list string) (g : nat -> nat -> pexp) : bool :=
  nodupb xs && negb (existsb (String.eqb "lambda") xs) &&
  forallb (fun x => forallb (fun y => negb (String.eqb x (y ++ "dot"))) xs) xs &&
  forallb (fun i => forallb (fun j => pisz (pdiff "lambda" (g i j)) && forallb (fun x => pisz (pdiff (x ++ "dot") (g i j))) xs) (seq 0 n)) (seq 0 n).
Lemma staticb_spec n xs g : staticb n xs g = true -> @static_metric PolyOps n xs g.
Proof.
  intros H. unfold staticb in H. do 3 cut2 H.
  split; [apply nodupb_spec, H|].
  split. { intros Hin. apply negb_true_iff in C1. apply not_true_iff_false in C1. apply C1. apply existsb_exists. eexists. split; [exact Hin|apply String.eqb_refl]. }
  rewrite forallb_forall in C0, C. split.
  - intros x y Hx Hy E. specialize (C0 x Hx). rewrite forallb_forall in C0. specialize (C0 y Hy). rewrite E, String.eqb_refl in C0. discriminate.
  - intros i j Hi Hj. specialize (C i (proj2 (in_seq n 0 i) ltac:(lia))). rewrite forallb_forall in C. specialize (C j (proj2 (in_seq n 0 j) ltac:(lia))).
    cut2 C. split; [apply pisz_ok, C|]. rewrite forallb_forall in C2. intros x Hx. apply pisz_ok, C2, Hx.
Qed.

Lemma ex_curve_session : metric_session ex_w 2 2 0 "g" ex_xs (mat2 ex_g) (mat2 ex_gi) /\
  known_results 2 ex_xs (mat2 ex_g) (mat2 ex_gi) ex_w 2 0 "g" /\ known_curves 2 ex_xs (mat2 ex_g) (mat2 ex_gi) ex_w 2 0 "g" /\
  static_metric 2 ex_xs (mat2 ex_g).
Proof.
  destruct ex_two_session as [H1 H2]. split; [exact H1|]. split; [exact H2|]. split; [apply curves_none; vmtrue|apply staticb_spec; vmtrue].
Qed.

(** Equations that are equivalent have the same zeros. *)
Lemma unit_zero a b (v : string -> Qc) : @unit_multiple PolyOps a b -> peval Qc_alg v b = 0%Qc -> peval Qc_alg v a = 0%Qc.
Proof. intros (u & _ & _ & E) H. apply (peq_Qc _ _ v) in E. rewrite E. cbn. rewrite H. apply Qcmult_0_r. Qed.
Definition zero_apart (r : res (pexp * pexp)) (v : string -> Qc) : bool :=
  match r with
  | Ok (a, b) => Qeq_bool (this (peval Qc_alg v b)) 0 && negb (Qeq_bool (this (peval Qc_alg v a)) 0)
  | _ => false
  end.
Lemma zero_apart_spec (m : @M PolyOps (pexp * pexp)) (w : @world PolyOps) v : zero_apart (fst (m w)) v = true ->
  exists a b w', m w = (Ok (a, b), w') /\ ~ @unit_multiple PolyOps a b.
Proof.
  destruct (m w) as [[[a b]|] w']; cbn [fst zero_apart]; try discriminate.
  intros H. apply andb_prop in H as [H1 H2]. exists a, b, w'. split; [reflexivity|]. intros U.
  apply Qeq_bool_iff in H1. assert (Z : peval Qc_alg v b = 0%Qc) by (apply Qc_is_canon; exact H1).
  apply (unit_zero a b v U) in Z. rewrite Z in H2. discriminate.
Qed.

(** C63 *)
Definition v63 (s : string) : Qc := if String.eqb s "xddot" then 1%Qc else 0%Qc.
Lemma geodesic_transform_witness :
  exists (w : @world PolyOps) m t w0 c oc g w1 gi w2 r w3 k,
  reachable w /\ calc_geodesic_christoffel m None w = (Ok t, w0) /\ obj_of w0 c = Some oc /\
  get_components m (Some c) (Some [-1; -1]%Z) w0 = (Ok g, w1) /\ get_components m (Some c) (Some [1; 1]%Z) w1 = (Ok gi, w2) /\
  get_components t (Some c) None w2 = (Ok r, w3) /\
  k < 2 /\ ~ unit_multiple (aget r [k]) (Geo 2 (o_syms oc) (mat2 g) (mat2 gi) k).
Proof.
  destruct (zero_apart_spec
    (let! t := calc_geodesic_christoffel 2 None in let! oc := getobj 1 in
     let! g := get_components 2 (Some 1) (Some [-1; -1]%Z) in let! gi := get_components 2 (Some 1) (Some [1; 1]%Z) in
     let! r := get_components t (Some 1) None in
     mret (aget r [0], Geo 2 (o_syms oc) (mat2 g) (mat2 gi) 0)) ex_w v63) as (x & y & w' & H & N); [vmtrue|].
  apply bind_inv in H as (t & w0 & E0 & H). apply bind_inv in H as (oc & w0' & E1 & H). apply getobj_inv in E1 as [E1 ->].
  apply bind_inv in H as (g & w1 & E2 & H). apply bind_inv in H as (gi & w2 & E3 & H). apply bind_inv in H as (r & w3 & E4 & H).
  apply ret_inv in H as [H _]. injection H as -> ->.
  exists ex_w, 2, t, w0, 1, oc, g, w1, gi, w2, r, w3, 0. split; [apply ex_w_reachable|]. repeat (split; [first [assumption|lia]|]). exact N.
Qed.

(** C74 *)
Definition v74 (s : string) : Qc :=
  if String.eqb s "udot" then 1%Qc else if String.eqb s "vddot" then (- (1 + 1 + 1))%Qc else 0%Qc.
Lemma geodesic_other_witness :
  exists (w : @world PolyOps) m t w0 c oc g w1 gi w2 r w3 k,
  reachable w /\ calc_geodesic_christoffel m (Some c) w = (Ok t, w0) /\ obj_of w0 c = Some oc /\
  get_components m (Some c) (Some [-1; -1]%Z) w0 = (Ok g, w1) /\ get_components m (Some c) (Some [1; 1]%Z) w1 = (Ok gi, w2) /\
  get_components t (Some c) None w2 = (Ok r, w3) /\
  k < 2 /\ ~ unit_multiple (aget r [k]) (Geo 2 (o_syms oc) (mat2 g) (mat2 gi) k).
Proof.
  destruct (zero_apart_spec
    (let! t := calc_geodesic_christoffel 2 (Some 1) in let! oc := getobj 1 in
     let! g := get_components 2 (Some 1) (Some [-1; -1]%Z) in let! gi := get_components 2 (Some 1) (Some [1; 1]%Z) in
     let! r := get_components t (Some 1) None in
     mret (aget r [1], Geo 2 (o_syms oc) (mat2 g) (mat2 gi) 1)) ex_w v74) as (x & y & w' & H & N); [vmtrue|].
  apply bind_inv in H as (t & w0 & E0 & H). apply bind_inv in H as (oc & w0' & E1 & H). apply getobj_inv in E1 as [E1 ->].
  apply bind_inv in H as (g & w1 & E2 & H). apply bind_inv in H as (gi & w2 & E3 & H). apply bind_inv in H as (r & w3 & E4 & H).
  apply ret_inv in H as [H _]. injection H as -> ->.
  exists ex_w, 2, t, w0, 1, oc, g, w1, gi, w2, r, w3, 1. split; [apply ex_w_reachable|]. repeat (split; [first [assumption|lia]|]). exact N.
Qed.

(** C76 *)
Lemma shared_lagrangian_witness :
  exists (w : @world PolyOps) m c t w1 o1 w2 o2,
  reachable w /\ calc_lagrangian m None w = (Ok t, w1) /\ obj_of w1 t = Some o1 /\
  calc_lagrangian m (Some c) w1 = (Ok t, w2) /\ obj_of w2 t = Some o2 /\ o_coords o1 <> Some c /\ o_coords o2 = Some c.
Proof.
  pose (p := (let! t := calc_lagrangian 2 None in let! o1 := getobj t in let! s := calc_lagrangian 2 (Some 1) in
    let! o2 := getobj t in mlift (if (t =? s) && negb (opt_eqb (o_coords o1) 1) && opt_eqb (o_coords o2) 1 then Ok tt else Err EValueError)) : @M PolyOps unit).
  destruct (out_ok p ex_w) as (x & w' & H & _); [vmtrue|]. unfold p in H. clear p.
  apply bind_inv in H as (t & w1 & E1 & H). apply bind_inv in H as (o1 & w1' & E2 & H). apply getobj_inv in E2 as [E2 ->].
  apply bind_inv in H as (s & w2 & E3 & H). apply bind_inv in H as (o2 & w2' & E4 & H). apply getobj_inv in E4 as [E4 ->].
  apply check_inv in H as [H _]. apply andb_prop in H as [H H3]. apply andb_prop in H as [H1 H2]. apply Nat.eqb_eq in H1. subst s.
  exists ex_w, 2, 1, t, w1, o1, w2, o2. split; [apply ex_w_reachable|]. repeat (split; [assumption|]).
  split; [|apply opt_eqb_spec, H3]. intros E. rewrite E in H2. discriminate.
Qed.

(** C71 *)
Lemma ex_lagrangian_hyps :
  let rules := ex_rules in
  NoDup (map fst rules) /\ Permutation (map fst rules) ex_xs /\
  (forall x x', In x ex_xs -> In x' ex_xs -> x <> (x' ++ "dot")%string) /\
  (forall x, In x ex_xs -> ~ In x ex_ys /\ ~ In x (map (fun y => y ++ "dot") ex_ys)%string /\ ~ In (x ++ "dot")%string ex_ys /\ ~ In (x ++ "dot")%string (map (fun y => y ++ "dot") ex_ys)%string) /\
  (forall x, In x ex_xs -> x <> "lambda"%string /\ (x ++ "dot")%string <> "lambda"%string) /\
  (forall r x, In r rules -> In x ex_xs -> free_of x (snd r) /\ free_of (x ++ "dot")%string (snd r)) /\
  (forall r, In r rules -> keq (kdiff "lambda" (snd r)) k0) /\
  square 2 ex_g /\ (forall i j x, i < 2 -> j < 2 -> In x ex_xs -> free_of (x ++ "dot")%string (aget ex_g [i; j])) /\
  exists J Ji C g', calculate_jacobian ex_xs ex_ys rules = Ok (J, Ji, C) /\ transform J Ji rules 2 [-1; -1]%Z ex_g = Ok g'.
Proof.
  cbv zeta.
  split; [repeat constructor; cbn; intuition discriminate|].
  split; [apply perm_swap|].
  split; [intros x x' [<-|[<-|[]]] [<-|[<-|[]]]; discriminate|].
  split; [intros x [<-|[<-|[]]]; cbn; intuition discriminate|].
  split; [intros x [<-|[<-|[]]]; split; discriminate|].
  split; [intros r x [<-|[<-|[]]] [<-|[<-|[]]]; split; (split; [polyeq|intros q; exact (@Equivalence_Reflexive _ _ (@keq_equiv PolyOps PolyLaws) _)])|].
  split; [intros r [<-|[<-|[]]]; polyeq|].
  split; [apply ex_sq|].
  split.
  - intros i j x Hi Hj [<-|[<-|[]]]; destruct i as [|[|]]; try lia; destruct j as [|[|]]; try lia; (split; [polyeq|intros q; exact (@Equivalence_Reflexive _ _ (@keq_equiv PolyOps PolyLaws) _)]).
  - assert (E : is_ok (do t <- calculate_jacobian ex_xs ex_ys ex_rules; transform (fst (fst t)) (snd (fst t)) ex_rules 2 [-1; -1]%Z ex_g) = true) by vmtrue.
    destruct (calculate_jacobian ex_xs ex_ys ex_rules) as [[[J Ji] C]|] eqn:EJ; [|discriminate]. cbn [rbind fst snd] in E.
    apply is_ok_ex in E as [g' E]. exists J, Ji, C, g'. split; [reflexivity|exact E].
Qed.

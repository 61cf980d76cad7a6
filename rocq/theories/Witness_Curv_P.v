(** Concrete sessions for curvature. *)
From Coq Require Import QArith Qcanon.
From Verif Require Import Alg Alg_P Arr Arr_P Spec UtilsM Arr2_P Act_P TensorM Inst Ex WorldM SpecWorld World_P Registry_P CalcM SpecCalc Calc_P CurvM SpecCurv Curv2_P CurvRun_P ExWorld Witness_World_P Witness_History_P Witness_Calc_P.
Local Open Scope nat_scope.

Definition same_poly (a b : pexp) : bool := pisz (PSub a b).
Lemma same_poly_spec a b : same_poly a b = true -> @keq PolyOps a b.
Proof. intros H. apply pisz_ok in H. apply (@ksub_zero_eq PolyOps PolyLaws). exact H. Qed.

Definition matb (n : nat) (f h : nat -> nat -> pexp) : bool := forallb (fun i => forallb (fun j => same_poly (f i j) (h i j)) (seq 0 n)) (seq 0 n).
Lemma matb_spec n f h : matb n f h = true -> forall i j, i < n -> j < n -> @keq PolyOps (f i j) (h i j).
Proof.
  intros H i j Hi Hj. unfold matb in H. rewrite forallb_forall in H. specialize (H i (proj2 (in_seq n 0 i) ltac:(lia))). rewrite forallb_forall in H.
  apply same_poly_spec, H, in_seq. lia.
Qed.

Definition tableb (d : list (list Z * @arr PolyOps)) (i : list Z) (n : nat) (f : nat -> nat -> pexp) : bool :=
  match dget cfg_eqb i d with Some a => cubicb n 2 a && matb n (fun p q => aget a [p; q]) f | None => false end.
Definition names_free (w : @world PolyOps) (names : list string) : bool :=
  forallb (fun j => negb (existsb (fun s => is_named w s j) names)) (insts w).
Definition sessionb (w : @world PolyOps) (n : nat) (m c : oid) (name : string) (xs : list string) (g gi : nat -> nat -> pexp) : bool :=
  (1 <=? n) && typedb w && names_free w ["TEMP"%string] && systemb w c n && inb_list c (insts w) && inb_list m (insts w) &&
  obj_view w c (fun o => if list_eq_dec string_dec (o_syms o) xs then true else false) false && (length xs =? n) && clsb w m CMetric &&
  matb n g (fun i j => g j i) && matb n (fun i j => @nsum PolyOps n (fun k => PMul (g i k) (gi k j))) (@kdelta PolyOps) &&
  matb n (fun i j => @nsum PolyOps n (fun k => PMul (gi i k) (g k j))) (@kdelta PolyOps) &&
  obj_view w m (fun o => String.eqb (o_name o) name && opt_eqb (o_metric o) m && opt_eqb (o_coords o) c && cfg_eqb (o_indices o) [-1; -1]%Z && (o_rank o =? 2) &&
    match dget Nat.eqb c (o_comps o) with
    | Some d => tableb d [-1; -1]%Z n g && tableb d [1; 1]%Z n gi && tableb d [1; -1]%Z n (@kdelta PolyOps) && tableb d [-1; 1]%Z n (@kdelta PolyOps)
    | None => false
    end) false.

Lemma names_free_spec w names : names_free w names = true -> forall s j, In s names -> In j (insts w) -> ~ named w s j.
Proof.
  intros H s j Hs Hj Hn. unfold names_free in H. rewrite forallb_forall in H. specialize (H j Hj). apply negb_true_iff in H. apply not_true_iff_false in H. apply H.
  apply existsb_exists. exists s. split; [exact Hs|]. apply is_named_spec, Hn.
Qed.
Ltac two H := let H' := fresh "C" in apply andb_prop in H as [H H'].

Lemma sessionb_spec w n m c name xs g gi : reachable w -> sessionb w n m c name xs g gi = true -> @metric_session PolyOps w n m c name xs g gi.
Proof.
  intros R H. unfold sessionb in H. do 12 two H. apply Nat.leb_le in H.
  assert (NT := names_free_spec _ _ C9). assert (I1 := inb_list_spec _ _ C7). assert (I2 := inb_list_spec _ _ C6).
  split; [apply typedb_spec, C10|]. split; [apply reachable_integrity, R|]. split; [intros j Hj Hn; exfalso; apply (NT "TEMP"%string j); [left; reflexivity|exact Hj|exact Hn]|].
  split; [exact H|]. split; [apply systemb_spec, C8|]. split; [exact I1|]. split; [apply NT; [left; reflexivity|exact I1]|].
  split; [unfold obj_view in C5; destruct (obj_of w c) as [oc|]; [|discriminate]; exists oc; split; [reflexivity|]; destruct (list_eq_dec string_dec (o_syms oc) xs); [|discriminate]; split; [assumption|apply Nat.eqb_eq, C4]|].
  split; [apply clsb_spec, C3|]. split; [exact I2|]. split; [apply NT; [left; reflexivity|exact I2]|].
  split; [intros i j Hi Hj; apply (matb_spec n g (fun i j => g j i) C2 i j Hi Hj)|].
  split; [split; [apply (matb_spec _ _ _ C1)|apply (matb_spec _ _ _ C0)]|].
  unfold obj_view in C. destruct (obj_of w m) as [o|]; [|discriminate]. do 5 two C. destruct (dget Nat.eqb c (o_comps o)) as [d|] eqn:Ed; [|discriminate].
  do 3 two C11. apply String.eqb_eq in C. apply opt_eqb_spec in C15, C14. apply cfg_eqb_spec in C13. apply Nat.eqb_eq in C12.
  exists o, (fun z0 z1 => match dget cfg_eqb [z0; z1] d with Some a => a | None => mkArr [] [] end).
  split; [reflexivity|]. split; [exact C|]. split; [exact C15|]. split; [exact C13|]. split; [exact C12|].
  assert (T : forall i f, tableb d i n f = true -> exists a, dget cfg_eqb i d = Some a /\ cubic n a /\ rank a = 2 /\ forall p q, p < n -> q < n -> keq (aget a [p; q]) (f p q)).
  { intros i f Ht. unfold tableb in Ht. destruct (dget cfg_eqb i d) as [a|]; [|discriminate]. apply andb_prop in Ht as [H1 H2]. apply cubicb_spec in H1 as [H1 H3].
    exists a. split; [reflexivity|]. split; [exact H1|]. split; [exact H3|]. apply (matb_spec _ _ _ H2). }
  destruct (T _ _ C11) as (a1 & A1 & A2 & A3 & A4). destruct (T _ _ C18) as (b1 & B1 & B2 & B3 & B4).
  destruct (T _ _ C17) as (d1 & D1 & D2 & D3 & D4). destruct (T _ _ C16) as (e1 & E1 & E2 & E3 & E4).
  split.
  - split; [exact C14|]. split; [rewrite C13; reflexivity|]. exists d. split; [exact Ed|]. intros z0 z1 V.
    inversion V as [|? ? V0 V']; subst. inversion V' as [|? ? V1 _]; subst. destruct V0 as [-> | ->], V1 as [-> | ->].
    + rewrite B1. auto.
    + rewrite D1. auto.
    + rewrite E1. auto.
    + rewrite A1. auto.
  - intros i j Hi Hj. rewrite A1, B1, D1, E1. auto.
Qed.

(** No curvature tensor is registered. *)
Lemma known_none w n m c name xs g gi :
  names_free w (map (append name) [" Christoffel"; " Riemann"; " Ricci Tensor"; " Ricci Scalar"; " Einstein"; " Weyl Tensor"])%string = true ->
  @known_results PolyOps n xs g gi w m c name.
Proof.
  intros H. assert (N := names_free_spec _ _ H). cbn [map] in N.
  assert (Kn : forall s i f, In s (map (append name) [" Christoffel"; " Riemann"; " Ricci Tensor"; " Ricci Scalar"; " Einstein"; " Weyl Tensor"])%string -> @known PolyOps w n m c s i f).
  { intros s i f Hs j Hj Hn. exfalso. apply (N s j Hs Hj Hn). }
  repeat split; apply Kn; cbn; auto 10.
Qed.

Notation mat2 a := (fun i j => @aget PolyOps a [i; j]).
Lemma ex_two_session : metric_session ex_w 2 2 0 "g" ex_xs (mat2 ex_g) (mat2 ex_gi) /\ known_results 2 ex_xs (mat2 ex_g) (mat2 ex_gi) ex_w 2 0 "g".
Proof. split; [apply sessionb_spec; [apply ex_w_reachable|vmtrue]|apply known_none; vmtrue]. Qed.
Lemma ex_three_reachable : reachable ex_three_w.
Proof. apply start_reachable; vmtrue. Qed.
Lemma ex_three_session : metric_session ex_three_w 3 1 0 "g" ex_xyz (mat2 ex_g3) (mat2 ex_gi3) /\ known_results 3 ex_xyz (mat2 ex_g3) (mat2 ex_gi3) ex_three_w 1 0 "g".
Proof. split; [apply sessionb_spec; [apply ex_three_reachable|vmtrue]|apply known_none; vmtrue]. Qed.

Lemma ex_metrics_reachable : reachable ex_metrics_w.
Proof. apply run_all_reachable; [apply ex_w_reachable|vmtrue]. Qed.
Lemma check_inv {A : AlgOps} (b : bool) e (u : unit) w w' : mlift (if b then Ok tt else Err e) w = (Ok u, w') -> b = true /\ w' = w.
Proof. intros H. destruct b; apply (f_equal snd) in H as H'; cbn in H'; [auto|discriminate]. Qed.

(** C48 *)
Lemma upper_metric_witness :
  exists (w : @world PolyOps) m1 m2 c a w1 b w2 t1 w3 t2 w4 r1 w5 r2 w6 i j k,
  reachable w /\ get_components m1 (Some c) (Some [-1; -1]%Z) w = (Ok a, w1) /\ get_components m2 (Some c) (Some [-1; -1]%Z) w1 = (Ok b, w2) /\
  (forall p q, p < 2 -> q < 2 -> keq (aget a [p; q]) (aget b [p; q])) /\
  calc_christoffel m1 w2 = (Ok t1, w3) /\ calc_christoffel m2 w3 = (Ok t2, w4) /\
  get_components t1 (Some c) (Some [1; -1; -1]%Z) w4 = (Ok r1, w5) /\ get_components t2 (Some c) (Some [1; -1; -1]%Z) w5 = (Ok r2, w6) /\
  i < 2 /\ j < 2 /\ k < 2 /\ ~ keq (aget r1 [i; j; k]) (aget r2 [i; j; k]).
Proof.
  destruct (differ2_spec
    (let! a := get_components 2 (Some 0) (Some [-1; -1]%Z) in let! b := get_components 4 (Some 0) (Some [-1; -1]%Z) in
     let! u := mlift (if matb 2 (mat2 a) (mat2 b) then Ok tt else Err EValueError) in
     let! t1 := calc_christoffel 2 in let! t2 := calc_christoffel 4 in
     let! r1 := get_components t1 (Some 0) (Some [1; -1; -1]%Z) in let! r2 := get_components t2 (Some 0) (Some [1; -1; -1]%Z) in
     mret (aget r1 [0; 1; 1], aget r2 [0; 1; 1])) ex_metrics_w v12) as (x & y & w' & H & N); [vmtrue|].
  apply bind_inv in H as (a & w1 & E1 & H). apply bind_inv in H as (b & w2 & E2 & H). apply bind_inv in H as (u & w2' & E3 & H). apply check_inv in E3 as [E3 ->].
  apply bind_inv in H as (t1 & w3 & E4 & H). apply bind_inv in H as (t2 & w4 & E5 & H). apply bind_inv in H as (r1 & w5 & E6 & H). apply bind_inv in H as (r2 & w6 & E7 & H).
  apply ret_inv in H as [H _]. injection H as -> ->.
  exists ex_metrics_w, 2, 4, 0, a, w1, b, w2, t1, w3, t2, w4, r1, w5, r2, w6, 0, 1, 1. split; [apply ex_metrics_reachable|]. split; [exact E1|]. split; [exact E2|].
  split; [apply (matb_spec 2 _ _ E3)|]. split; [exact E4|]. split; [exact E5|]. split; [exact E6|]. split; [exact E7|].
  split; [lia|]. split; [lia|]. split; [lia|]. exact N.
Qed.

(** C49 *)
Definition differ3 (r s : res pexp) (v : string -> Qc) : bool :=
  match r, s with
  | Ok a, Ok b => negb (Qeq_bool (this (peval Qc_alg v a)) (this (peval Qc_alg v b)))
  | _, _ => false
  end.
Lemma differ3_spec (p q : @M PolyOps pexp) (w : @world PolyOps) v : differ3 (fst (p w)) (fst (q w)) v = true ->
  exists a w1 b w2, p w = (Ok a, w1) /\ q w = (Ok b, w2) /\ ~ @keq PolyOps a b.
Proof.
  destruct (p w) as [[a|] w1]; cbn [fst differ3]; [|discriminate]. destruct (q w) as [[b|] w2]; cbn [fst]; [|discriminate].
  intros H. exists a, w1, b, w2. split; [reflexivity|]. split; [reflexivity|].
  intros E. apply (peq_Qc _ _ v) in E. rewrite E in H. rewrite (proj2 (Qeq_bool_iff _ _)) in H by reflexivity. discriminate.
Qed.
Lemma shared_result_witness :
  exists (w : @world PolyOps) m1 m2 t w1 w1' t' w2 c r w3 r' w4 i j k,
  reachable w /\ m1 <> m2 /\ calc_christoffel m1 w = (Ok t, w1) /\ calc_christoffel m2 w1 = (Ok t, w1') /\
  calc_christoffel m2 w = (Ok t', w2) /\
  get_components t (Some c) (Some [1; -1; -1]%Z) w1' = (Ok r, w3) /\ get_components t' (Some c) (Some [1; -1; -1]%Z) w2 = (Ok r', w4) /\
  i < 2 /\ j < 2 /\ k < 2 /\ ~ keq (aget r [i; j; k]) (aget r' [i; j; k]).
Proof.
  destruct (differ3_spec (let! t := calc_christoffel 2 in let! s := calc_christoffel 5 in
     let! u := mlift (if t =? s then Ok tt else Err EValueError) in
     let! r := get_components t (Some 0) (Some [1; -1; -1]%Z) in @mret PolyOps (@K PolyOps) (aget r [0; 1; 1]))
    (let! t := calc_christoffel 5 in let! r := get_components t (Some 0) (Some [1; -1; -1]%Z) in @mret PolyOps (@K PolyOps) (aget r [0; 1; 1]))
    ex_metrics_w v12) as (a & w4 & b & w5 & H & H' & N); [vmtrue|].
  apply bind_inv in H as (t & w1 & E1 & H). apply bind_inv in H as (s & w2 & E2 & H). apply bind_inv in H as (u & w2' & E3 & H).
  apply check_inv in E3 as [E3 ->]. apply Nat.eqb_eq in E3. subst s. apply bind_inv in H as (r & w3 & E4 & H). apply ret_inv in H as [-> _].
  apply bind_inv in H' as (t' & w1' & E1' & H'). apply bind_inv in H' as (r' & w3' & E4' & H'). apply ret_inv in H' as [-> _].
  exists ex_metrics_w, 2, 5, t, w1, w2, t', w1', 0, r, w3, r', w3', 0, 1, 1. split; [apply ex_metrics_reachable|]. split; [discriminate|].
  split; [exact E1|]. split; [exact E2|]. split; [exact E1'|]. split; [exact E4|]. split; [exact E4'|].
  split; [lia|]. split; [lia|]. split; [lia|]. exact N.
Qed.

(** C53 *)
Lemma weyl_deletes_witness :
  exists (w : @world PolyOps) m t w1 u w2 r,
  reachable w /\ calc_ricci m w = (Ok t, w1) /\ In t (insts w1) /\ calc_weyl m w1 = (Ok u, w2) /\ ~ In t (insts w2) /\
  ~ In r (insts w1) /\ In r (insts w2) /\ named w2 "Result" r.
Proof.
  pose (p := (let! t := calc_ricci 1 in fun w1 => (let! u := calc_weyl 1 in fun w2 =>
    match find (fun r => is_named w2 "Result" r) (insts w2) with
    | Some r => if inb_list t (insts w1) && negb (inb_list t (insts w2)) && negb (inb_list r (insts w1)) then (Ok (t, u, r, w1), w2) else (Err EValueError, w2)
    | None => (Err EValueError, w2) end) w1) : @M PolyOps (oid * oid * oid * world)).
  destruct (out_ok p ex_three_w) as (x & w' & H & _); [vmtrue|]. unfold p in H. clear p.
  apply bind_inv in H as (t & w1 & E1 & H). apply bind_inv in H as (u & w2 & E2 & H).
  destruct (find (fun r => is_named w2 "Result" r) (insts w2)) as [r|] eqn:Ef; [|discriminate]. apply find_some in Ef as [F1 F2].
  destruct (inb_list t (insts w1) && negb (inb_list t (insts w2)) && negb (inb_list r (insts w1))) eqn:C; [|discriminate]. clear H.
  apply andb_prop in C as [C C3]. apply andb_prop in C as [C1 C2].
  assert (NI : forall i l, negb (inb_list i l) = true -> ~ In i l).
  { intros i l Hn Hi. unfold inb_list in Hn. rewrite (proj2 (existsb_exists _ _)) in Hn; [discriminate|]. exists i. split; [exact Hi|apply Nat.eqb_refl]. }
  exists ex_three_w, 1, t, w1, u, w2, r. split; [apply ex_three_reachable|]. split; [exact E1|]. split; [apply inb_list_spec, C1|]. split; [exact E2|].
  split; [apply NI, C2|]. split; [apply NI, C3|]. split; [exact F1|apply is_named_spec, F2].
Qed.

Lemma ex_ricci_session : exists t w, calc_ricci 1 ex_three_w = (Ok t, w) /\
  metric_session w 3 1 0 "g" ex_xyz (mat2 ex_g3) (mat2 ex_gi3) /\
  known_results 3 ex_xyz (mat2 ex_g3) (mat2 ex_gi3) w 1 0 "g" /\
  (forall j, In j (insts w) -> ~ named w "g Weyl Tensor" j) /\
  In t (insts w) /\ named w "g Ricci Tensor" t /\
  (forall k, In k (insts w) -> named w "g Ricci Tensor" k -> k = t) /\ ~ used w t.
Proof.
  destruct ex_three_session as [HS HK].
  destruct (ricci_gives 3 1 0 "g" ex_xyz (mat2 ex_g3) (mat2 ex_gi3) ex_three_w HS HK) as (t & w & E & It & _ & _ & S' & K').
  pose (p := (let! t := calc_ricci 1 in fun w => let ok := 
     forallb (fun j => negb (is_named w "g Weyl Tensor" j)) (insts w) && is_named w "g Ricci Tensor" t &&
     forallb (fun j => negb (is_named w "g Ricci Tensor" j) || (j =? t)) (insts w) && negb (usedb w t) in
     if ok then (Ok tt, w) else (Err EValueError, w)) : @M PolyOps unit).
  assert (C : is_ok (fst (p ex_three_w)) = true) by vmtrue. unfold p in C. clear p.
  rewrite (bind_ok _ _ _ _ _ E) in C. cbv beta zeta in C.
  match type of C with is_ok (fst (if ?b then _ else _)) = true => destruct b eqn:B; [clear C|discriminate] end.
  apply andb_prop in B as [B B4]. apply andb_prop in B as [B B3]. apply andb_prop in B as [B1 B2].
  exists t, w. split; [exact E|]. split; [exact S'|]. split; [exact K'|].
  rewrite forallb_forall in B1, B3.
  assert (NN : forall s j, named w s j -> is_named w s j = true).
  { intros s j (o & Ho & En). unfold is_named. rewrite Ho. apply String.eqb_eq, En. }
  split. { intros j Hj Hn. apply B1 in Hj. rewrite (NN _ _ Hn) in Hj. discriminate. }
  split; [exact It|]. split; [apply is_named_spec, B2|].
  split. { intros k Hk Hn. apply B3 in Hk. rewrite (NN _ _ Hn) in Hk. apply Nat.eqb_eq, Hk. }
  apply not_usedb. destruct (usedb w t); [discriminate|reflexivity].
Qed.

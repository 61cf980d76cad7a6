(** A concrete session with a metric whose volume element is not constant: hyperbolic space
    dx^2 + exp(2x) (dy^2 + dz^2). *)
From Coq Require Import QArith Qcanon.
From Verif Require Import Alg Alg_P Arr Arr_P Spec UtilsM Arr2_P Act_P TensorM Inst InstExp WorldM SpecWorld World_P Registry_P CalcM SpecCalc Calc_P CurvM SpecCurv SpecCov SpecDeriv SpecLine SpecVolume Curv2_P CurvRun_P Cov4_P Norm_P LineM ExWorld Witness_World_P.
Local Open Scope nat_scope.

(** Sessions over any algebra, checked by evaluation. *)
Section Check.
Context {A : AlgOps} {L : AlgLaws A}.
Add Ring Kring : kring (setoid keq_equiv kring_ext).
Definition a_same (x y : K) : bool := kisz (ksub x y).
Lemma a_same_spec x y : a_same x y = true -> keq x y.
Proof. intros H. apply kisz_ok in H. transitivity (kadd (ksub x y) y); [ring|]. rewrite H. ring. Qed.
Definition a_matb (n : nat) (f h : nat -> nat -> K) : bool := forallb (fun i => forallb (fun j => a_same (f i j) (h i j)) (seq 0 n)) (seq 0 n).
Lemma a_matb_spec n f h : a_matb n f h = true -> forall i j, i < n -> j < n -> keq (f i j) (h i j).
Proof.
  intros H i j Hi Hj. unfold a_matb in H. rewrite forallb_forall in H. specialize (H i (proj2 (in_seq n 0 i) ltac:(lia))). rewrite forallb_forall in H.
  apply a_same_spec, H, in_seq. lia.
Qed.
Definition a_cubicb (n r : nat) (a : arr) : bool := list_eqb (shape a) (repeat n r) && (length (data a) =? prodn (repeat n r)).
Lemma a_cubicb_spec n r a : a_cubicb n r a = true -> cubic n a /\ rank a = r.
Proof.
  intros H. apply andb_prop in H as [H1 H2]. apply list_eqb_spec in H1. apply Nat.eqb_eq in H2.
  assert (R : rank a = r) by (unfold rank; rewrite H1; apply repeat_length).
  split; [|exact R]. split; [unfold awf; rewrite H1; exact H2|rewrite R; exact H1].
Qed.
Definition a_view {B} (w : world) (i : oid) (f : obj -> B) (b : B) : B := match obj_of w i with Some o => f o | None => b end.
Definition a_typedb (w : world) : bool :=
  forallb (fun i => a_view w i (fun o =>
    match o_metric o with Some m => clsb w m CMetric | None => true end &&
    match o_coords o with Some c => clsb w c CCoordinates | None => true end) true) (seq 0 (length (heap w))).
Lemma a_typedb_spec w : a_typedb w = true -> typed w.
Proof.
  intros H i o Ho. unfold a_typedb in H. rewrite forallb_forall in H.
  assert (Hi : In i (seq 0 (length (heap w)))).
  { apply in_seq. split; [lia|]. cbn. unfold obj_of in Ho. destruct (nth_error (heap w) i) eqn:E; [|discriminate].
    apply nth_error_Some. congruence. }
  apply H in Hi. unfold a_view in Hi. rewrite Ho in Hi. apply andb_prop in Hi as [H1 H2].
  split; intros x Hx; rewrite Hx in *; apply clsb_spec; assumption.
Qed.
Definition a_opt (x : option oid) (j : oid) : bool := match x with Some i => i =? j | None => false end.
Lemma a_opt_spec x j : a_opt x j = true -> x = Some j.
Proof. destruct x; cbn; [|discriminate]. intros H. apply Nat.eqb_eq in H. congruence. Qed.
Definition a_systemb (w : world) (c : oid) (n : nat) (xs : list string) : bool :=
  clsb w c CCoordinates && a_view w c (fun o =>
    match dget Nat.eqb c (o_comps o) with
    | Some d => match dget cfg_eqb [1]%Z d with Some x => length (data x) =? n | None => false end
    | None => false
    end && (if list_eq_dec string_dec (o_syms o) xs then true else false)) false && (length xs =? n).
Lemma a_systemb_spec w c n xs : a_systemb w c n xs = true -> coordinate_system w c n /\ exists o, obj_of w c = Some o /\ o_syms o = xs /\ length xs = n.
Proof.
  intros H. apply andb_prop in H as [H H3]. apply andb_prop in H as [H1 H]. apply clsb_spec in H1. unfold a_view in H.
  destruct (obj_of w c) as [o|] eqn:Eo; [|discriminate]. apply andb_prop in H as [H H2].
  destruct (dget Nat.eqb c (o_comps o)) as [d|] eqn:Ed; [|discriminate]. destruct (dget cfg_eqb [1]%Z d) as [x|] eqn:Ex; [|discriminate].
  destruct (list_eq_dec string_dec (o_syms o) xs) as [E|]; [|discriminate].
  apply Nat.eqb_eq in H, H3. split; [split; [exact H1|exists o, d, x; auto]|exists o; auto].
Qed.
Definition a_tableb (d : list (list Z * arr)) (i : list Z) (n : nat) (f : nat -> nat -> K) : bool :=
  match dget cfg_eqb i d with Some a => a_cubicb n 2 a && a_matb n (fun p q => aget a [p; q]) f | None => false end.
Definition a_free (w : world) (names : list string) : bool :=
  forallb (fun j => negb (existsb (fun s => is_named w s j) names)) (insts w).
Lemma a_free_spec w names : a_free w names = true -> forall s j, In s names -> In j (insts w) -> ~ named w s j.
Proof.
  intros H s j Hs Hj Hn. unfold a_free in H. rewrite forallb_forall in H. specialize (H j Hj). apply negb_true_iff in H. apply not_true_iff_false in H. apply H.
  apply existsb_exists. exists s. split; [exact Hs|]. apply is_named_spec, Hn.
Qed.
Definition a_sessionb (w : world) (n : nat) (m c : oid) (name : string) (xs : list string) (g gi : nat -> nat -> K) : bool :=
  (1 <=? n) && a_typedb w && a_free w ["TEMP"%string] && a_systemb w c n xs && inb_list c (insts w) && inb_list m (insts w) && clsb w m CMetric &&
  a_matb n g (fun i j => g j i) && a_matb n (fun i j => nsum n (fun k => kmul (g i k) (gi k j))) kdelta &&
  a_matb n (fun i j => nsum n (fun k => kmul (gi i k) (g k j))) kdelta &&
  a_view w m (fun o => String.eqb (o_name o) name && a_opt (o_metric o) m && a_opt (o_coords o) c && cfg_eqb (o_indices o) [-1; -1]%Z && (o_rank o =? 2) &&
    match dget Nat.eqb c (o_comps o) with
    | Some d => a_tableb d [-1; -1]%Z n g && a_tableb d [1; 1]%Z n gi && a_tableb d [1; -1]%Z n kdelta && a_tableb d [-1; 1]%Z n kdelta
    | None => false
    end) false.
Ltac two H := let H' := fresh "C" in apply andb_prop in H as [H H'].
Lemma a_sessionb_spec w n m c name xs g gi : reachable w -> a_sessionb w n m c name xs g gi = true -> metric_session w n m c name xs g gi.
Proof.
  intros R H. unfold a_sessionb in H. do 10 two H. apply Nat.leb_le in H.
  assert (NT := a_free_spec _ _ C7). apply inb_list_spec in C5, C4. apply a_systemb_spec in C6 as [S1 S2].
  split; [apply a_typedb_spec, C8|]. split; [apply reachable_integrity, R|]. split; [intros j Hj Hn; exfalso; apply (NT "TEMP"%string j); [left; reflexivity|exact Hj|exact Hn]|].
  split; [exact H|]. split; [exact S1|]. split; [exact C5|]. split; [apply NT; [left; reflexivity|exact C5]|].
  split; [exact S2|]. split; [apply clsb_spec, C3|]. split; [exact C4|]. split; [apply NT; [left; reflexivity|exact C4]|].
  split; [intros i j Hi Hj; apply (a_matb_spec n g (fun i j => g j i) C2 i j Hi Hj)|].
  split; [split; [apply (a_matb_spec _ _ _ C1)|apply (a_matb_spec _ _ _ C0)]|].
  unfold a_view in C. destruct (obj_of w m) as [o|]; [|discriminate]. do 5 two C. destruct (dget Nat.eqb c (o_comps o)) as [d|] eqn:Ed; [|discriminate].
  do 3 two C6. apply String.eqb_eq in C. apply a_opt_spec in C12, C11. apply cfg_eqb_spec in C10. apply Nat.eqb_eq in C9.
  exists o, (fun z0 z1 => match dget cfg_eqb [z0; z1] d with Some a => a | None => mkArr [] [] end).
  split; [reflexivity|]. split; [exact C|]. split; [exact C12|]. split; [exact C10|]. split; [exact C9|].
  assert (T : forall i f, a_tableb d i n f = true -> exists a, dget cfg_eqb i d = Some a /\ cubic n a /\ rank a = 2 /\ forall p q, p < n -> q < n -> keq (aget a [p; q]) (f p q)).
  { intros i f Ht. unfold a_tableb in Ht. destruct (dget cfg_eqb i d) as [a|]; [|discriminate]. apply andb_prop in Ht as [H1 H2]. apply a_cubicb_spec in H1 as [H1 H3].
    exists a. split; [reflexivity|]. split; [exact H1|]. split; [exact H3|]. apply (a_matb_spec _ _ _ H2). }
  destruct (T _ _ C6) as (a1 & A1 & A2 & A3 & A4). destruct (T _ _ C15) as (b1 & B1 & B2 & B3 & B4).
  destruct (T _ _ C14) as (d1 & D1 & D2 & D3 & D4). destruct (T _ _ C13) as (e1 & E1 & E2 & E3 & E4).
  split.
  - split; [exact C11|]. split; [rewrite C10; reflexivity|]. exists d. split; [exact Ed|]. intros z0 z1 V.
    inversion V as [|? ? V0 V']; subst. inversion V' as [|? ? V1 _]; subst. destruct V0 as [-> | ->], V1 as [-> | ->].
    + rewrite B1. auto.
    + rewrite D1. auto.
    + rewrite E1. auto.
    + rewrite A1. auto.
  - intros i j Hi Hj. rewrite A1, B1, D1, E1. auto.
Qed.
Lemma a_known_none w n m c name xs g gi :
  a_free w (map (append name) [" Christoffel"; " Riemann"; " Ricci Tensor"; " Ricci Scalar"; " Einstein"; " Weyl Tensor"])%string = true ->
  known_results n xs g gi w m c name.
Proof.
  intros H. assert (N := a_free_spec _ _ H). cbn [map] in N.
  assert (Kn : forall s i f, In s (map (append name) [" Christoffel"; " Riemann"; " Ricci Tensor"; " Ricci Scalar"; " Einstein"; " Weyl Tensor"])%string -> known w n m c s i f).
  { intros s i f Hs j Hj Hn. exfalso. apply (N s j Hs Hj Hn). }
  repeat split; apply Kn; cbn; auto 10.
Qed.
Definition a_comps (w : world) (t c : oid) : arr :=
  a_view w t (fun o => match dget Nat.eqb c (o_comps o) with
    | Some d => match dget cfg_eqb (o_indices o) d with Some a => a | None => mkArr [] [] end
    | None => mkArr [] []
    end) (mkArr [] []).
Definition a_tensorb (w : world) (n : nat) (m c t : oid) (i : list Z) : bool :=
  clsb w t CTensor && a_view w t (fun o => a_opt (o_metric o) m && cfg_eqb (o_indices o) i && (o_rank o =? length i) && a_opt (o_coords o) c &&
    match dget Nat.eqb c (o_comps o) with Some d => match dget cfg_eqb i d with Some _ => true | None => false end | None => false end) false &&
  a_cubicb n (length i) (a_comps w t c) && negb (is_named w "TEMP" t).
Lemma a_tensorb_spec w n m c t i : a_tensorb w n m c t i = true ->
  tensor_value w n m c t i (aget (a_comps w t c)) /\ ~ named w "TEMP" t.
Proof.
  intros H. apply andb_prop in H as [H Hn]. split; [|intros N; apply is_named_spec in N; rewrite N in Hn; discriminate].
  apply andb_prop in H as [H H1]. apply andb_prop in H as [H0 H]. apply a_cubicb_spec in H1 as [H1 H2]. apply clsb_spec in H0.
  unfold a_comps, a_view in *. destruct (obj_of w t) as [o|] eqn:Eo; [|discriminate]. do 4 two H. apply a_opt_spec in H, C0. apply cfg_eqb_spec in C2. apply Nat.eqb_eq in C1.
  rewrite <- C2 in C. destruct (dget Nat.eqb c (o_comps o)) as [d|] eqn:Ed; [|discriminate]. destruct (dget cfg_eqb (o_indices o) d) as [a|] eqn:Ea; [|discriminate].
  exists CTensor, o, a. split; [exact H0|]. split; [discriminate|]. split; [exact Eo|]. split; [exact H|]. split; [exact C2|]. split; [exact C1|].
  split; [split; [exact C0|exists d; auto]|]. split; [exact H1|]. split; [exact H2|]. intros idx _. reflexivity.
Qed.
Lemma a_anti_spec n a : a_matb n (fun p q => aget a [q; p]) (fun p q => kopp (aget a [p; q])) = true -> antisymmetric_first n 2 (aget a).
Proof.
  intros H j idx H1 H2 [Hl Hr]. destruct idx as [|p [|q [|]]]; try discriminate. assert (j = 1) by lia. subst j.
  inversion Hr as [|? ? Hp Hr']; subst. inversion Hr' as [|? ? Hq _]; subst. apply (a_matb_spec _ _ _ H p q Hp Hq).
Qed.
End Check.

(** *** Hyperbolic space *)
Local Notation pv := PV.
Local Notation pz := (fun z => PC (inject_Z z)).
Definition hyp_xyz : list string := ["x"; "y"; "z"]%string.
Definition e_x : pexp := PV (ex_ "x").
Definition i_x : pexp := PV (in_ "x").
Definition hyp_g : @arr ExpOps :=
  @mkArr ExpOps [3; 3] [pz 1%Z; pz 0%Z; pz 0%Z; pz 0%Z; PMul e_x e_x; pz 0%Z; pz 0%Z; pz 0%Z; PMul e_x e_x].
Definition hyp_gi : @arr ExpOps :=
  @mkArr ExpOps [3; 3] [pz 1%Z; pz 0%Z; pz 0%Z; pz 0%Z; PMul i_x i_x; pz 0%Z; pz 0%Z; pz 0%Z; PMul i_x i_x].
(** a vector (object 2), a covector (3), antisymmetric tensors with two upper (4) and two lower
    (5) indices, and a scalar (6) *)
Definition hyp_V : @arr ExpOps := @mkArr ExpOps [3] [pv "x"; PMul (pv "y") (pv "x"); pv "z"]%string.
Definition hyp_F : @arr ExpOps := @mkArr ExpOps [3; 3]
  [pz 0%Z; pv "y"; PMul (pv "x") (pv "z"); POpp (pv "y"); pz 0%Z; pv "x"; POpp (PMul (pv "x") (pv "z")); POpp (pv "x"); pz 0%Z]%string.
Definition hyp_s : @arr ExpOps := @mkArr ExpOps [] [PMul (pv "x") (PMul (pv "y") (pv "z"))]%string.
Definition str_ (s : string) : @pyval ExpOps := VStr s.
Definition hyp_w : @world ExpOps := @run_all ExpOps
  [OpCoordinates (str_ "XYZ") (VSyms [3] hyp_xyz) (VTuple [1]%Z) (str_ "x") [];
   OpMetric (str_ "g") (VArr hyp_g) (VObj 0) (VTuple [-1; -1]%Z) (str_ "g");
   OpTensor (str_ "V") (VArr hyp_V) (VObj 1) (VObj 0) (VTuple [1]%Z) (str_ "V");
   OpTensor (str_ "A") (VArr hyp_V) (VObj 1) (VObj 0) (VTuple [-1]%Z) (str_ "A");
   OpTensor (str_ "F") (VArr hyp_F) (VObj 1) (VObj 0) (VTuple [1; 1]%Z) (str_ "F");
   OpTensor (str_ "H") (VArr hyp_F) (VObj 1) (VObj 0) (VTuple [-1; -1]%Z) (str_ "H");
   OpTensor (str_ "S") (VArr hyp_s) (VObj 1) (VObj 0) (VTuple []) (str_ "S")] empty_world.

Notation emat a := (fun i j => @aget ExpOps a [i; j]).
Lemma hyp_reachable : @reachable ExpOps hyp_w.
Proof. apply run_all_reachable; [apply reach_start|vmtrue]. Qed.
Lemma hyp_session :
  metric_session hyp_w 3 1 0 "g" hyp_xyz (emat hyp_g) (emat hyp_gi) /\ known_results 3 hyp_xyz (emat hyp_g) (emat hyp_gi) hyp_w 1 0 "g".
Proof. split; [apply a_sessionb_spec; [apply hyp_reachable|vmtrue]|apply a_known_none; vmtrue]. Qed.
Lemma hyp_tensors :
  (exists h, tensor_value hyp_w 3 1 0 2 (repeat 1%Z 1) h /\ antisymmetric_first 3 1 h) /\ ~ named hyp_w "TEMP" 2 /\
  (exists h, tensor_value hyp_w 3 1 0 3 [-1]%Z h) /\ ~ named hyp_w "TEMP" 3 /\
  (exists h, tensor_value hyp_w 3 1 0 4 (repeat 1%Z 2) h /\ antisymmetric_first 3 2 h) /\ ~ named hyp_w "TEMP" 4 /\
  (exists h, tensor_value hyp_w 3 1 0 5 [-1; -1]%Z h /\ forall p q, p < 3 -> q < 3 -> keq (h [q; p]) (kopp (h [p; q]))) /\ ~ named hyp_w "TEMP" 5 /\
  (exists h, tensor_value hyp_w 3 1 0 6 [] h) /\ ~ named hyp_w "TEMP" 6.
Proof.
  destruct (a_tensorb_spec hyp_w 3 1 0 2 [1]%Z ltac:(vmtrue)) as [V2 N2]. destruct (a_tensorb_spec hyp_w 3 1 0 3 [-1]%Z ltac:(vmtrue)) as [V3 N3].
  destruct (a_tensorb_spec hyp_w 3 1 0 4 [1; 1]%Z ltac:(vmtrue)) as [V4 N4]. destruct (a_tensorb_spec hyp_w 3 1 0 5 [-1; -1]%Z ltac:(vmtrue)) as [V5 N5].
  destruct (a_tensorb_spec hyp_w 3 1 0 6 [] ltac:(vmtrue)) as [V6 N6].
  split; [eexists; split; [exact V2|]; intros j idx H1 H2; lia|]. split; [exact N2|]. split; [eexists; exact V3|]. split; [exact N3|].
  split; [eexists; split; [exact V4|]; apply a_anti_spec; vmtrue|]. split; [exact N4|].
  split; [eexists; split; [exact V5|]; apply a_matb_spec; vmtrue|]. split; [exact N5|]. split; [eexists; exact V6|exact N6].
Qed.

(** The volume element is exp(4x), and its derivative with x is 4 exp(4x), which is not zero. *)
Definition e_4x : pexp := PMul (PMul e_x e_x) (PMul e_x e_x).
Lemma hyp_volume : exists e, @volume_element ExpOps 1 None hyp_w = (Ok e, hyp_w) /\ @keq ExpOps e e_4x /\
  @keq ExpOps (@kdiff ExpOps "x" e) (PMul (PC 4%Q) e_4x) /\ ~ @keq ExpOps (@kdiff ExpOps "x" e) (@k0 ExpOps).
Proof.
  destruct (@volume_element ExpOps 1 None hyp_w) as [[e|] w'] eqn:E.
  2: { exfalso. assert (H : is_ok (fst (@volume_element ExpOps 1 None hyp_w)) = true) by vmtrue. rewrite E in H. discriminate H. }
  assert (W : w' = hyp_w).
  { assert (H : snd (@volume_element ExpOps 1 None hyp_w) = hyp_w) by (vm_cast_no_check (eq_refl hyp_w)). rewrite E in H. exact H. }
  subst w'. exists e. split; [reflexivity|].
  assert (S : @a_same ExpOps e e_4x = true).
  { assert (H : match fst (@volume_element ExpOps 1 None hyp_w) with Ok e => @a_same ExpOps e e_4x | Err _ => false end = true) by vmtrue. rewrite E in H. exact H. }
  assert (S' := a_same_spec _ _ S). split; [exact S'|].
  assert (D : @keq ExpOps (@kdiff ExpOps "x" e) (PMul (PC 4%Q) e_4x)).
  { rewrite (kdiff_proper _ _ _ S'). apply a_same_spec. vmtrue. }
  split; [exact D|]. intros Z. assert (Q : @keq ExpOps (PMul (PC 4%Q) e_4x) (PC 0%Q)) by (transitivity (@kdiff ExpOps "x" e); [symmetry; exact D|exact Z]).
  apply (eeq_Qc _ _ (fun _ => 1%Qc)) in Q; [|reflexivity]. discriminate Q.
Qed.
Lemma hyp_letters : NoDup ["a"; "b"; "c"]%string /\ two_letters_free ["a"; "b"; "c"]%string /\ "P"%string <> "TEMP"%string /\ ~ In "P"%string (curvature_names "g").
Proof.
  split; [repeat constructor; cbn; intuition discriminate|]. split; [apply letters_free; cbn; lia|]. split; [discriminate|].
  cbn. intros H; repeat (destruct H as [H|H]; [discriminate H|]); exact H.
Qed.

(** The divergence of the divergence of an antisymmetric tensor vanishes. *)
From Coq Require Import Setoid.
From Verif Require Import Alg Alg_P Arr Arr_P Spec SpecCurv SpecCov SpecDeriv Act_P Tensor_P Curv_P CurvCov_P CurvCov2_P CovId_P RicciId_P RaiseCov_P Norm_P.
Local Open Scope K_scope.

Section Charge.
Context {A : AlgOps} {L : AlgLaws A} {D : DiffLaws A}.
Add Ring Kring : kring (setoid keq_equiv kring_ext).
Variables (n : nat) (x : nat -> string) (g gi : nat -> nat -> K).
Hypothesis Hs : symmetric_fun n g.
Hypothesis Hinv : inverse_fun n g gi.
Notation G := (christoffel_of n x g gi).
Notation cov := (covariant_of n x G).
Notation div := (divergence_of n x G gi).
Notation Rc := (ricci_of n (riemann_of n x G)).

Variable F : list nat -> K.
Hypothesis Fa : forall p q, (p < n)%nat -> (q < n)%nat -> F [p; q] == - F [q; p].
Notation J := (div [1; 1]%Z F 1).
Notation dd p q := (cov [-1; 1; 1]%Z (fun ks => cov [1; 1]%Z F (nth 0 ks 0%nat) (tl ks)) p [q; p; q]).

Lemma div_two : div [1]%Z J 0 [] == nsum n (fun p => nsum n (fun q => dd p q)).
Proof.
  unfold divergence_of at 1. cbn [nth Z.eqb Pos.eqb]. apply nsum_ext. intros p Hp.
  change (inserted 0 p []) with [p].
  unfold covariant_of at 1. cbn [length]. unfold nsum at 1. cbn [seq lsum nth Z.eqb Pos.eqb].
  change (fun d => G p p d * J (replaced 0 d [p])) with (fun d => G p p d * J [d]).
  assert (EJ : forall d, J [d] == nsum n (fun q => cov [1; 1]%Z F q [d; q])).
  { intros d. unfold divergence_of. cbn [nth Z.eqb Pos.eqb]. reflexivity. }
  rewrite (kdiff_proper _ _ _ (EJ p)), kdiff_nsum.
  rewrite (nsum_ext n (fun d => G p p d * J [d]) (fun d => nsum n (fun q => G p p d * cov [1; 1]%Z F q [d; q]))) by (intros d _; rewrite EJ, <- nsum_scale; reflexivity).
  assert (E : forall q, dd p q == kdiff (x p) (cov [1; 1]%Z F q [p; q]) + nsum n (fun d => G p p d * cov [1; 1]%Z F q [d; q])
     + (nsum n (fun d => G q p d * cov [1; 1]%Z F q [p; d]) - nsum n (fun d => G d p q * cov [1; 1]%Z F d [p; q]))).
  { intros q. unfold covariant_of at 1. cbn [length]. unfold nsum at 1. cbn [seq lsum nth Z.eqb Pos.eqb tl replaced firstn skipn app]. ring. }
  rewrite (nsum_ext n (fun q => dd p q) _ (fun q _ => E q)). rewrite nsum_add, nsum_sub, nsum_add.
  rewrite (nsum_swap n n (fun q d => G q p d * cov [1; 1]%Z F q [p; d])).
  rewrite (nsum_swap n n (fun d q => G p p d * cov [1; 1]%Z F q [d; q])). ring.
Qed.

Lemma G_sym i j k : (j < n)%nat -> (k < n)%nat -> G i j k == G i k j.
Proof. intros Hj Hk. exact (Curv_P.G_sym n x g gi Hs i j k Hj Hk). Qed.

Lemma cov_swap2 k p q : (k < n)%nat -> (p < n)%nat -> (q < n)%nat -> cov [1; 1]%Z F k [p; q] == - cov [1; 1]%Z F k [q; p].
Proof.
  intros Hk Hp Hq. unfold covariant_of. cbn [length]. unfold nsum at 1 4. cbn [seq lsum nth Z.eqb Pos.eqb replaced firstn skipn app].
  rewrite (kdiff_proper _ _ _ (Fa p q Hp Hq)), kdiff_opp.
  rewrite (nsum_ext n (fun d => G p k d * F [d; q]) (fun d => - (G p k d * F [q; d]))) by (intros d Hd; rewrite (Fa d q) by assumption; ring).
  rewrite (nsum_ext n (fun d => G q k d * F [p; d]) (fun d => - (G q k d * F [d; p]))) by (intros d Hd; rewrite (Fa p d) by assumption; ring).
  rewrite !nsum_opp. ring.
Qed.
Notation D2 := (fun ks : list nat => cov [1; 1]%Z F (nth 0 ks 0%nat) (tl ks)).
Lemma cov_swap3 k s p q : (k < n)%nat -> (s < n)%nat -> (p < n)%nat -> (q < n)%nat -> cov [-1; 1; 1]%Z D2 k [s; p; q] == - cov [-1; 1; 1]%Z D2 k [s; q; p].
Proof.
  intros Hk Hsn Hp Hq. assert (E : forall p q, cov [-1; 1; 1]%Z D2 k [s; p; q] == kdiff (x k) (cov [1; 1]%Z F s [p; q]) - nsum n (fun d => G d k s * cov [1; 1]%Z F d [p; q])
     + nsum n (fun d => G p k d * cov [1; 1]%Z F s [d; q]) + nsum n (fun d => G q k d * cov [1; 1]%Z F s [p; d])).
  { intros p0 q0. unfold covariant_of at 1. cbn [length]. unfold nsum at 1. cbn [seq lsum nth Z.eqb Pos.eqb tl replaced firstn skipn app]. ring. }
  rewrite (E p q), (E q p). clear E. cbn [seq lsum nth Z.eqb Pos.eqb replaced firstn skipn app tl].
  rewrite (kdiff_proper _ _ _ (cov_swap2 s p q Hsn Hp Hq)), kdiff_opp.
  rewrite (nsum_ext n (fun d => G d k s * cov [1; 1]%Z F d [p; q]) (fun d => - (G d k s * cov [1; 1]%Z F d [q; p]))) by (intros d Hd; rewrite (cov_swap2 d p q) by assumption; ring).
  rewrite (nsum_ext n (fun d => G p k d * cov [1; 1]%Z F s [d; q]) (fun d => - (G p k d * cov [1; 1]%Z F s [q; d]))) by (intros d Hd; rewrite (cov_swap2 s d q) by assumption; ring).
  rewrite (nsum_ext n (fun d => G q k d * cov [1; 1]%Z F s [p; d]) (fun d => - (G q k d * cov [1; 1]%Z F s [d; p]))) by (intros d Hd; rewrite (cov_swap2 s p d) by assumption; ring).
  rewrite !nsum_opp. ring.
Qed.

Lemma div_zero : div [1]%Z J 0 [] == k0.
Proof.
  rewrite div_two. set (S := nsum n (fun p => nsum n (fun q => dd p q))).
  assert (H : S + S == k0).
  { transitivity (nsum n (fun p => nsum n (fun q => curvature_terms n (riemann_of n x G) [1; 1]%Z F p q [p; q]))).
    { transitivity (S + nsum n (fun p => nsum n (fun q => dd q p))); [apply kadd_proper; [reflexivity|unfold S; apply nsum_swap]|].
      unfold S. rewrite <- nsum_add. apply nsum_ext. intros p Hp. rewrite <- nsum_add. apply nsum_ext. intros q Hq.
      rewrite <- (ricci_identity n x G G_sym [1; 1]%Z F p q [p; q]); [|constructor; [auto|constructor; [auto|constructor]]|exact Hp|exact Hq|reflexivity|repeat constructor; assumption].
      rewrite (cov_swap3 q p q p) by assumption. ring. }
    set (X := nsum n (fun d => nsum n (fun q => Rc d q * F [d; q]))).
    assert (HX : X == - X).
    { unfold X at 1. rewrite nsum_swap. unfold X. rewrite <- nsum_opp. apply nsum_ext. intros d Hd. rewrite <- nsum_opp. apply nsum_ext. intros q Hq.
      rewrite (Curv_P.ricci_sym n x g gi Hs Hinv q d), (Fa q d) by assumption. ring. }
    transitivity (X + X); [|rewrite HX at 1; ring].
    transitivity (nsum n (fun p => nsum n (fun q => nsum n (fun d => riemann_of n x G p d p q * F [d; q]))) + nsum n (fun p => nsum n (fun q => nsum n (fun d => riemann_of n x G q d p q * F [p; d])))).
    { rewrite <- nsum_add. apply nsum_ext. intros p _. rewrite <- nsum_add. apply nsum_ext. intros q _. unfold curvature_terms. cbn [length].
      unfold nsum at 1. cbn [seq lsum nth Z.eqb Pos.eqb replaced firstn skipn app]. ring. }
    apply kadd_proper; unfold X.
    - rewrite nsum_swap. rewrite (nsum_swap n n (fun d q => Rc d q * F [d; q])). apply nsum_ext. intros q _. rewrite nsum_swap. apply nsum_ext. intros d _.
      unfold ricci_of. rewrite <- nsum_scale_r. reflexivity.
    - transitivity (nsum n (fun p => nsum n (fun d => Rc d p * F [d; p]))); [|apply nsum_swap]. apply nsum_ext. intros p Hp.
      rewrite nsum_swap. apply nsum_ext. intros d Hd. unfold ricci_of. rewrite <- nsum_scale_r. apply nsum_ext. intros q Hq.
      rewrite (Curv_P.riemann_antisym n x g gi q d p q), (Fa p d Hp Hd). ring. }
  transitivity (kinvn 2 * (S + S)); [symmetry; apply half_double|]. rewrite H. ring.
Qed.
End Charge.

Section Lower.
Context {A : AlgOps} {L : AlgLaws A} {D : DiffLaws A}.
Add Ring Kring' : kring (setoid keq_equiv kring_ext).
Variables (n : nat) (x : nat -> string) (g gi : nat -> nat -> K).
Hypothesis Hs : symmetric_fun n g.
Hypothesis Hinv : inverse_fun n g gi.
Notation G := (christoffel_of n x g gi).
Notation cov := (covariant_of n x G).
Notation div := (divergence_of n x G gi).
Variable h : list nat -> K.
Hypothesis Ha : forall p q, (p < n)%nat -> (q < n)%nat -> h [p; q] == - h [q; p].
Notation H := (converted n g gi [-1; -1]%Z [1; 1]%Z h).

Lemma up2 T p q : converted n g gi [-1; -1]%Z [1; 1]%Z T [p; q] == nsum n (fun a => nsum n (fun b => gi p a * gi q b * T [a; b])).
Proof.
  unfold converted. cbn [combine map fst snd]. rewrite act_cons. apply nsum_ext. intros a _. rewrite act_cons, <- nsum_scale. apply nsum_ext. intros b _.
  rewrite act_nil. unfold conv. cbn [Z.eqb Pos.eqb]. ring.
Qed.
Lemma down2 T p q : converted n g gi [1; 1]%Z [-1; -1]%Z T [p; q] == nsum n (fun a => nsum n (fun b => g p a * g q b * T [a; b])).
Proof.
  unfold converted. cbn [combine map fst snd]. rewrite act_cons. apply nsum_ext. intros a _. rewrite act_cons, <- nsum_scale. apply nsum_ext. intros b _.
  rewrite act_nil. unfold conv. cbn [Z.eqb Pos.eqb]. ring.
Qed.
Lemma down1 T p : converted n g gi [1]%Z [-1]%Z T [p] == nsum n (fun a => g p a * T [a]).
Proof.
  unfold converted. cbn [combine map fst snd]. rewrite act_cons. apply nsum_ext. intros a _. rewrite act_nil. unfold conv. cbn [Z.eqb Pos.eqb]. ring.
Qed.
Lemma H_anti p q : (p < n)%nat -> (q < n)%nat -> H [p; q] == - H [q; p].
Proof.
  intros Hp Hq. rewrite !up2, <- nsum_opp. rewrite nsum_swap. apply nsum_ext. intros a Hn. rewrite <- nsum_opp. apply nsum_ext. intros b Hb. rewrite (Ha b a) by assumption. ring.
Qed.
Lemma valid2 z : (z = 1 \/ z = -1)%Z -> valid_cfg [z; z].
Proof. intros Hz. constructor; [exact Hz|constructor; [exact Hz|constructor]]. Qed.
Lemma h_back idx : in_range n 2 idx -> h idx == converted n g gi [1; 1]%Z [-1; -1]%Z H idx.
Proof.
  intros Hx. symmetry. etransitivity; [exact (converted_comp n g gi [-1; -1]%Z [1; 1]%Z [-1; -1]%Z h idx Hinv (valid2 _ (or_intror eq_refl)) (valid2 _ (or_introl eq_refl)) (valid2 _ (or_intror eq_refl)) eq_refl eq_refl Hx)|].
  apply converted_self. exact Hx.
Qed.
Lemma contract_g q (T : nat -> K) : (q < n)%nat -> nsum n (fun l => gi q l * nsum n (fun b => g l b * T b)) == T q.
Proof.
  intros Hq. transitivity (nsum n (fun b => nsum n (fun l => gi q l * g l b) * T b)).
  - transitivity (nsum n (fun l => nsum n (fun b => gi q l * g l b * T b))).
    + apply nsum_ext. intros l _. rewrite <- nsum_scale. apply nsum_ext. intros b _. ring.
    + rewrite nsum_swap. apply nsum_ext. intros b _. rewrite <- nsum_scale_r. reflexivity.
  - rewrite <- (nsum_delta_l n q T Hq). apply nsum_ext. intros b Hb. rewrite (proj2 Hinv q b Hq Hb). reflexivity.
Qed.
Lemma cov_down k p q : (k < n)%nat -> (p < n)%nat -> (q < n)%nat ->
  cov [-1; -1]%Z h k [p; q] == nsum n (fun a => nsum n (fun b => g p a * g q b * cov [1; 1]%Z H k [a; b])).
Proof.
  intros Hk Hp Hq. assert (R : in_range n 2 [p; q]) by (split; [reflexivity|repeat constructor; assumption]).
  rewrite (covariant_ext n x G [-1; -1]%Z h _ k [p; q] R h_back).
  rewrite (raise_covariant n x g gi Hs Hinv [1; 1]%Z [-1; -1]%Z H k [p; q] (valid2 _ (or_introl eq_refl)) (valid2 _ (or_intror eq_refl)) eq_refl Hk R). apply down2.
Qed.
Lemma div_down idx : in_range n 1 idx -> div [-1; -1]%Z h 1 idx == converted n g gi [1]%Z [-1]%Z (div [1; 1]%Z H 1) idx.
Proof.
  intros [Lx Rx]. destruct idx as [|p [|]]; try discriminate Lx. inversion Rx as [|? ? Hp _]; subst. rewrite down1.
  unfold divergence_of. cbn [nth Z.eqb Pos.eqb]. change (inserted 1 ?d [?q]) with [q; d].
  transitivity (nsum n (fun k => nsum n (fun a => g p a * cov [1; 1]%Z H k [a; k]))).
  - apply nsum_ext. intros k Hk. rewrite <- (contract_g k (fun b => nsum n (fun a => g p a * cov [1; 1]%Z H k [a; b])) Hk).
    apply nsum_ext. intros l Hl. apply kmul_proper; [reflexivity|]. rewrite cov_down by assumption. rewrite nsum_swap. apply nsum_ext. intros b _.
    rewrite <- nsum_scale. apply nsum_ext. intros a _. ring.
  - rewrite nsum_swap. apply nsum_ext. intros a _. rewrite nsum_scale. reflexivity.
Qed.
Lemma div_zero_lower : div [-1]%Z (div [-1; -1]%Z h 1) 0 [] == k0.
Proof.
  rewrite <- (div_zero n x g gi Hs Hinv H H_anti). unfold divergence_of at 1 3. cbn [nth Z.eqb Pos.eqb]. change (inserted 0 ?d []) with [d].
  apply nsum_ext. intros k Hk. rewrite <- (contract_g k (fun b => cov [1]%Z (div [1; 1]%Z H 1) k [b]) Hk).
  apply nsum_ext. intros l Hl. apply kmul_proper; [reflexivity|]. assert (R : in_range n 1 [l]) by (split; [reflexivity|repeat constructor; assumption]).
  rewrite (covariant_ext n x G [-1]%Z _ _ k [l] R div_down).
  rewrite (raise_covariant n x g gi Hs Hinv [1]%Z [-1]%Z (div [1; 1]%Z H 1) k [l]); [|constructor; [auto|constructor]|constructor; [auto|constructor]|reflexivity|exact Hk|exact R].
  apply down1.
Qed.
End Lower.

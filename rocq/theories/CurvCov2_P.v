(** The curvature of a metric under a change of coordinates given by rules. *)
From Verif Require Import Alg Alg_P Arr Arr_P Arr2_P UtilsM Utils_P Spec Act_P TensorM RL_P Jac_P Tensor_P Jacobian_P Chr_P Curv_P SpecChange CurvCov_P.
From Coq Require Import Permutation.
Local Open Scope K_scope.

Section ChangeR.
Context {A : AlgOps} {L : AlgLaws A} {DL : DiffLaws A} {SL : SubsLaws A} {IL : InvLaws A}.
Add Ring Kring : kring (setoid keq_equiv kring_ext).
Variables (n : nat) (xs ys : list string) (R : list rule) (J Ji C : arr) (g gi g' gi' : nat -> nat -> K).
Hypothesis HX : coordinate_change n xs ys R.
Hypothesis EJ : calculate_jacobian xs ys R = Ok (J, Ji, C).
Let s := subs_seq R.
Let Jf := mfun J.
Let JI := hmat s (mfun Ji).
Hypothesis Hsym : symmetric_fun n g.
Hypothesis Hinv : inverse_fun n g gi.
Hypothesis Hinv' : inverse_fun n g' gi'.
Hypothesis Hy : without_symbols n ys 2 (at2 g).
Hypothesis Hg' : forall i j, (i < n)%nat -> (j < n)%nat ->
  g' i j == nsum n (fun p => nsum n (fun q => Jf p i * Jf q j * s (g p q))).

Lemma c_hom : hom s.
Proof. apply hom_subs_seq. Qed.

Lemma c_spec : square n J /\ square n Ji /\ inverse_fun n (mfun J) (mfun Ji) /\
  (forall p, (p < n)%nat -> exists r, dget String.eqb (nth p xs ""%string) R = Some r /\ In (nth p xs ""%string, r) R /\
     forall q, (q < n)%nat -> Jf p q == kdiff (nth q ys ""%string) r).
Proof.
  destruct HX as (Hn & Lx & Ly & Hd & HP & Hdis & Hfree).
  destruct (calculate_jacobian_spec n xs ys R Hn Lx Ly Hd J Ji C EJ) as (SqJ & SqJi & _ & _ & InvJ & GJ & _).
  split; [exact SqJ|]. split; [exact SqJi|]. split; [exact InvJ|]. intros p Hp.
  destruct (dget_in R (nth p xs ""%string)) as [r Hr].
  { apply (Permutation_in _ (Permutation_sym HP)). apply nth_In. lia. }
  exists r. split; [exact Hr|]. split; [apply dget_some_in; exact Hr|]. intros q Hq. unfold Jf, mfun. rewrite GJ by assumption. rewrite Hr. reflexivity.
Qed.

Lemma c_free_new x q : In x xs -> (q < n)%nat -> x <> nth q ys ""%string.
Proof.
  destruct HX as (Hn & Lx & Ly & Hd & HP & Hdis & Hfree). intros Hx Hq ->. apply (Hdis _ Hx). apply nth_In. lia.
Qed.

Lemma c_sfree e : (forall x, In x xs -> free_of x e) -> s e == e.
Proof.
  destruct HX as (Hn & Lx & Ly & Hd & HP & Hdis & Hfree). intros H. apply subs_seq_free. intros x Hx. apply H. apply (Permutation_in x HP); exact Hx.
Qed.

Lemma c_sJ p q : (p < n)%nat -> (q < n)%nat -> s (Jf p q) == Jf p q.
Proof.
  intros Hp Hq. destruct c_spec as (_ & _ & _ & H). destruct (H p Hp) as (r & _ & Hin & Hr).
  rewrite (hom_proper _ c_hom _ _ (Hr q Hq)), (Hr q Hq). apply c_sfree. intros x Hx.
  destruct HX as (Hn & Lx & Ly & Hd & HP & Hdis & Hfree). apply free_diff; [apply c_free_new; assumption|apply (Hfree _ x Hin Hx)].
Qed.

Lemma c_inverse : inverse_fun n Jf JI.
Proof.
  destruct c_spec as (_ & _ & I & _). eapply inverse_ext; [|apply meq_refl|apply hmat_inverse; [apply c_hom|exact I]].
  intros p q Hp Hq. apply c_sJ; assumption.
Qed.

Lemma c_chain e k : (k < n)%nat -> (forall l, (l < n)%nat -> kdiff (cx ys l) e == k0) ->
  kdiff (cx ys k) (s e) == nsum n (fun m => s (kdiff (cx xs m) e) * Jf m k).
Proof.
  intros Hk He. destruct c_spec as (_ & _ & _ & H). destruct HX as (Hn & Lx & Ly & Hd & HP & Hdis & Hfree).
  assert (Hyin : In (cx ys k) ys) by (apply nth_In; lia).
  unfold s. rewrite chain_seq.
  - fold s. rewrite (hom_proper _ c_hom _ _ (He k Hk)), (hom_0 s c_hom). rewrite (lsum_perm _ _ _ (rules_by_perm xs R Hd HP)). unfold rules_by. rewrite lsum_map. cbn [fst snd].
    transitivity (k0 + lsum (map (fun a => nth a xs ""%string) (seq 0 n)) (fun c => s (kdiff c e) *
       kdiff (cx ys k) (match dget String.eqb c R with Some e0 => e0 | None => k0 end))).
    + apply kadd_proper; [reflexivity|]. rewrite <- Lx, map_nth_seq. reflexivity.
    + rewrite lsum_map. transitivity (k0 + nsum n (fun m => s (kdiff (cx xs m) e) * Jf m k)); [|ring]. apply kadd_proper; [reflexivity|].
      apply nsum_ext. intros a Ha. destruct (H a Ha) as (f & Hf & _ & Hr). rewrite Hf, (Hr k Hk). reflexivity.
  - intros Hin. apply (Hdis (cx ys k)); [apply (Permutation_in _ HP); exact Hin|exact Hyin].
  - exact Hd.
  - intros r x Hr Hx. apply Hfree; [exact Hr|]. apply (Permutation_in x HP); exact Hx.
Qed.

Lemma c_sym p k j : (p < n)%nat -> (k < n)%nat -> (j < n)%nat -> kdiff (cx ys k) (Jf p j) == kdiff (cx ys j) (Jf p k).
Proof.
  intros Hp Hk Hj. destruct c_spec as (_ & _ & _ & H). destruct (H p Hp) as (r & _ & _ & Hr).
  rewrite (kdiff_proper _ _ _ (Hr j Hj)), (kdiff_proper _ _ _ (Hr k Hk)). apply kdiff_comm.
Qed.

Lemma c_dg l p q : (l < n)%nat -> (p < n)%nat -> (q < n)%nat -> kdiff (cx ys l) (g p q) == k0.
Proof.
  intros Hl Hp Hq. destruct HX as (Hn & Lx & Ly & _). apply (Hy (cx ys l) [p; q]); [apply nth_In; lia|]. split; [reflexivity|repeat constructor; assumption].
Qed.

Lemma c_dgi l p q : (l < n)%nat -> (p < n)%nat -> (q < n)%nat -> kdiff (cx ys l) (gi p q) == k0.
Proof.
  intros Hl Hp Hq. destruct Hinv as [I1 I2].
  assert (H0 : forall a, (a < n)%nat -> nsum n (fun b => g a b * kdiff (cx ys l) (gi b q)) == k0).
  { intros a Ha. assert (E : kdiff (cx ys l) (nsum n (fun b => g a b * gi b q)) == k0).
    { rewrite (kdiff_proper _ _ _ (I1 a q Ha Hq)). unfold kdelta. destruct (Nat.eqb a q); [apply kdiff_1|apply kdiff_0]. }
    rewrite kdiff_nsum in E. rewrite <- E. apply nsum_ext. intros b Hb. rewrite kdiff_mul, (c_dg l a b Hl Ha Hb). ring. }
  transitivity (nsum n (fun b => kdelta p b * kdiff (cx ys l) (gi b q))); [symmetry; apply (nsum_delta_l n p (fun b => kdiff (cx ys l) (gi b q)) Hp)|].
  transitivity (nsum n (fun b => nsum n (fun a => gi p a * (g a b * kdiff (cx ys l) (gi b q))))).
  { apply nsum_ext. intros b Hb. rewrite <- (I2 p b Hp Hb), <- nsum_scale_r. apply nsum_ext. intros a _. ring. }
  rewrite nsum_swap. apply nsum_zero'. intros a Ha. rewrite nsum_scale, (H0 a Ha). ring.
Qed.

Lemma c_G p q r l : (p < n)%nat -> (q < n)%nat -> (r < n)%nat -> (l < n)%nat -> kdiff (cx ys l) (Gam n xs g gi p q r) == k0.
Proof.
  intros Hp Hq Hr Hl. unfold Gam, christoffel_of. rewrite kdiff_nsum. apply nsum_zero'. intros a Ha.
  rewrite !kdiff_mul, (kdiff_kinvn _ 2) by discriminate. rewrite (c_dgi l p a Hl Hp Ha), kdiff_sub, kdiff_add.
  assert (Z : forall m b c, (b < n)%nat -> (c < n)%nat -> kdiff (cx ys l) (kdiff (cx xs m) (g b c)) == k0).
  { intros m b c Hb Hc. rewrite kdiff_comm, (kdiff_proper _ _ _ (c_dg l b c Hl Hb Hc)). apply kdiff_0. }
  rewrite !Z by assumption. ring.
Qed.

Lemma c_metric : meq n g' (mcomp n (mtr Jf) (mcomp n (hmat s g) Jf)).
Proof.
  intros i j Hi Hj. rewrite (Hg' i j Hi Hj). unfold mcomp, mtr, hmat. apply nsum_ext. intros p _. rewrite <- nsum_scale. apply nsum_ext. intros q _. ring.
Qed.

Lemma c_inverse_metric : meq n gi' (mcomp n JI (mcomp n (hmat s gi) (mtr JI))).
Proof.
  apply inverse_fun_meq in Hinv' as [_ I2]. eapply inverse_unique; [exact I2|].
  assert (H : inverse_fun n g' (mcomp n JI (mcomp n (hmat s gi) (mtr JI)))).
  { eapply inverse_ext; [apply meq_sym; exact c_metric| |apply inverse_comp; [apply inverse_tr; exact c_inverse|apply inverse_comp; [apply hmat_inverse; [exact c_hom|exact Hinv]|exact c_inverse]]].
    apply mcomp_assoc. }
  apply (proj1 (inverse_fun_meq _ _ _)) in H as [H1 _]. exact H1.
Qed.

Lemma c_christoffel i j k : (i < n)%nat -> (j < n)%nat -> (k < n)%nat ->
  Gam n ys g' gi' i j k ==
  nsum n (fun p => nsum n (fun q => nsum n (fun r => JI i p * Jf q j * Jf r k * s (Gam n xs g gi p q r))))
  + nsum n (fun p => JI i p * kdiff (cx ys k) (Jf p j)).
Proof.
  intros Hi Hj Hk. change (Gam n ys g' gi' i j k) with (christoffel_of n (cx ys) g' gi' i j k).
  rewrite <- (core n (cx ys) (hmat s g) (hmat s gi) Jf JI g' gi' (fun p j k => kdiff (cx ys k) (Jf p j)) (fun m p q => s (kdiff (cx xs m) (g p q)))) by
    (first [assumption | apply c_inverse | apply c_metric | (apply hmat_inverse; [apply c_hom|assumption]) | reflexivity | idtac];
     intros; first [apply c_sym; assumption | (unfold hmat; apply (hom_proper _ c_hom); apply Hsym; assumption) |
       (unfold hmat; rewrite c_chain; [reflexivity|assumption|intros; apply c_dg; assumption]) | reflexivity]).
  apply kadd_proper; [|reflexivity]. apply nsum_ext. intros p _. apply nsum_ext. intros q _. apply nsum_ext. intros r _. apply kmul_proper; [reflexivity|].
  symmetry. unfold Gam, christoffel_of. rewrite (hom_nsum s) by exact c_hom. apply nsum_ext. intros l _.
  rewrite !(hom_mul _ c_hom), (hom_sub s c_hom), (hom_add _ c_hom), (hom_kinvn s c_hom) by discriminate. reflexivity.
Qed.

Lemma c_connection p k j : (p < n)%nat -> (k < n)%nat -> (j < n)%nat ->
  kdiff (cx ys k) (Jf p j) == nsum n (fun i => Jf p i * Gam n ys g' gi' i k j)
    - nsum n (fun q => nsum n (fun r => Jf q k * Jf r j * s (Gam n xs g gi p q r))).
Proof.
  intros Hp Hk Hj. destruct c_inverse as [I1 _].
  assert (E : nsum n (fun i => Jf p i * Gam n ys g' gi' i k j) ==
     nsum n (fun a => kdelta p a * (nsum n (fun q => nsum n (fun r => Jf q k * Jf r j * s (Gam n xs g gi a q r))) + kdiff (cx ys j) (Jf a k)))).
  { transitivity (nsum n (fun i => nsum n (fun a => Jf p i * (JI i a * (nsum n (fun q => nsum n (fun r => Jf q k * Jf r j * s (Gam n xs g gi a q r))) + kdiff (cx ys j) (Jf a k)))))).
    - apply nsum_ext. intros i Hi. rewrite (c_christoffel i k j Hi Hk Hj), nsum_scale. apply kmul_proper; [reflexivity|]. rewrite <- nsum_add. apply nsum_ext. intros a _.
      transitivity (JI i a * nsum n (fun q => nsum n (fun r => Jf q k * Jf r j * s (Gam n xs g gi a q r))) + JI i a * kdiff (cx ys j) (Jf a k)); [|ring].
      apply kadd_proper; [|reflexivity]. rewrite <- nsum_scale. apply nsum_ext. intros q _. rewrite <- nsum_scale. apply nsum_ext. intros r _. ring.
    - rewrite nsum_swap. apply nsum_ext. intros a Ha. rewrite <- (I1 p a Hp Ha), <- nsum_scale_r. apply nsum_ext. intros i _. ring. }
  rewrite E, (nsum_delta_l n p (fun a => nsum n (fun q => nsum n (fun r => Jf q k * Jf r j * s (Gam n xs g gi a q r))) + kdiff (cx ys j) (Jf a k)) Hp).
  rewrite (c_sym p k j Hp Hk Hj). ring.
Qed.

(** ** The curvature tensors *)
Lemma rie_change i j m v : (i < n)%nat -> (j < n)%nat -> (m < n)%nat -> (v < n)%nat ->
  Rie n ys g' gi' i j m v ==
  nsum n (fun p => nsum n (fun r => nsum n (fun t => nsum n (fun q => JI i p * Jf r j * Jf t m * Jf q v * s (Rie n xs g gi p r t q))))).
Proof.
  exact (riemann_change n (cx xs) (cx ys) s Jf JI (Gam n xs g gi) (Gam n ys g' gi') c_hom c_inverse c_chain c_connection c_sym c_G i j m v).
Qed.

Lemma ric_change j v : (j < n)%nat -> (v < n)%nat ->
  Ric n ys g' gi' j v == nsum n (fun r => nsum n (fun q => Jf r j * Jf q v * s (Ric n xs g gi r q))).
Proof.
  exact (ricci_change n (cx xs) (cx ys) s Jf JI (Gam n xs g gi) (Gam n ys g' gi') c_hom c_inverse c_chain c_connection c_sym c_G j v).
Qed.

Lemma c_inverse_back : meq n (mcomp n Jf (mcomp n gi' (mtr Jf))) (hmat s gi).
Proof.
  destruct c_inverse as [I1 I2].
  eapply meq_trans; [apply mcomp_ext; [apply meq_refl|apply mcomp_ext; [exact c_inverse_metric|apply meq_refl]]|].
  eapply meq_trans; [apply mcomp_ext; [apply meq_refl|]; eapply meq_trans; [apply mcomp_assoc|apply mcomp_ext; [apply meq_refl|eapply meq_trans; [apply mcomp_assoc|apply mcomp_ext; [apply meq_refl|]]]]|].
  - assert (HJt := inverse_tr n _ _ c_inverse). apply inverse_fun_meq in HJt as [JT1 JT2]. exact JT2.
  - eapply meq_trans; [apply mcomp_ext; [apply meq_refl|apply mcomp_ext; [apply meq_refl|apply mcomp_delta_r]]|].
    apply mcomp_cancel_l. intros i k Hi Hk. apply (I1 i k Hi Hk).
Qed.

Lemma trace_change (T T' : nat -> nat -> K) :
  (forall j v, (j < n)%nat -> (v < n)%nat -> T' j v == nsum n (fun r => nsum n (fun q => Jf r j * Jf q v * s (T r q)))) ->
  trace_of n gi' T' == s (trace_of n gi T).
Proof.
  intros HT. unfold trace_of. assert (E := c_inverse_back).
  transitivity (nsum n (fun r => nsum n (fun q => mcomp n Jf (mcomp n gi' (mtr Jf)) r q * s (T r q)))).
  - transitivity (nsum n (fun i => nsum n (fun j => nsum n (fun r => nsum n (fun q => gi' i j * (Jf r i * Jf q j * s (T r q))))))).
    + apply nsum_ext. intros i Hi. apply nsum_ext. intros j Hj. rewrite (HT i j Hi Hj), <- nsum_scale. apply nsum_ext. intros r _. symmetry. apply nsum_scale.
    + transitivity (nsum n (fun r => nsum n (fun q => nsum n (fun i => nsum n (fun j => gi' i j * (Jf r i * Jf q j * s (T r q))))))).
      * transitivity (nsum n (fun i => nsum n (fun r => nsum n (fun j => nsum n (fun q => gi' i j * (Jf r i * Jf q j * s (T r q))))))).
        { apply nsum_ext. intros i _. apply nsum_swap. }
        rewrite nsum_swap. apply nsum_ext. intros r _.
        transitivity (nsum n (fun i => nsum n (fun q => nsum n (fun j => gi' i j * (Jf r i * Jf q j * s (T r q)))))).
        { apply nsum_ext. intros i _. apply nsum_swap. }
        apply nsum_swap.
      * apply nsum_ext. intros r _. apply nsum_ext. intros q _. unfold mcomp, mtr. rewrite <- nsum_scale_r. apply nsum_ext. intros i _.
        rewrite <- nsum_scale, <- nsum_scale_r. apply nsum_ext. intros j _. ring.
  - rewrite (hom_nsum s) by exact c_hom. apply nsum_ext. intros r Hr. rewrite (hom_nsum s) by exact c_hom. apply nsum_ext. intros q Hq.
    rewrite (hom_mul _ c_hom), (E r q Hr Hq). reflexivity.
Qed.

Lemma sca_change : Sca n ys g' gi' == s (Sca n xs g gi).
Proof. apply trace_change. exact ric_change. Qed.

Lemma ein_change j v : (j < n)%nat -> (v < n)%nat ->
  Ein n ys g' gi' j v == nsum n (fun r => nsum n (fun q => Jf r j * Jf q v * s (Ein n xs g gi r q))).
Proof.
  intros Hj Hv. unfold Ein, einstein_of. rewrite (ric_change j v Hj Hv), (Hg' j v Hj Hv), sca_change.
  rewrite <- nsum_scale, <- nsum_sub. apply nsum_ext. intros r _. rewrite <- nsum_scale, <- nsum_sub. apply nsum_ext. intros q _.
  rewrite (hom_sub s c_hom), !(hom_mul _ c_hom), (hom_kinvn s c_hom) by discriminate. ring.
Qed.

Let T4 (f : nat -> nat -> nat -> nat -> K) (i k l m : nat) : K :=
  nsum n (fun p => nsum n (fun r => nsum n (fun t => nsum n (fun q => Jf p i * Jf r k * Jf t l * Jf q m * s (f p r t q))))).

Lemma lowered_change i k l m : (i < n)%nat -> (k < n)%nat -> (l < n)%nat -> (m < n)%nat ->
  lowered n g' (Rie n ys g' gi') i k l m == T4 (lowered n g (Rie n xs g gi)) i k l m.
Proof.
  intros Hi Hk Hl Hm. unfold lowered at 1, T4.
  assert (E : meq n (mcomp n g' JI) (mcomp n (mtr Jf) (hmat s g))).
  { eapply meq_trans; [apply mcomp_ext; [exact c_metric|apply meq_refl]|]. eapply meq_trans; [apply mcomp_assoc|]. apply mcomp_ext; [apply meq_refl|].
    apply mcomp_cancel_r. intros a b Ha Hb. apply (proj1 c_inverse a b Ha Hb). }
  transitivity (nsum n (fun p => mcomp n g' JI i p * nsum n (fun r => nsum n (fun t => nsum n (fun q => Jf r k * Jf t l * Jf q m * s (Rie n xs g gi p r t q)))))).
  { transitivity (nsum n (fun a => nsum n (fun p => g' i a * JI a p * nsum n (fun r => nsum n (fun t => nsum n (fun q => Jf r k * Jf t l * Jf q m * s (Rie n xs g gi p r t q))))))).
    - apply nsum_ext. intros a Ha. rewrite (rie_change a k l m Ha Hk Hl Hm), <- nsum_scale. apply nsum_ext. intros p _.
      rewrite <- !nsum_scale. apply nsum_ext. intros r _. rewrite <- !nsum_scale. apply nsum_ext. intros t _. rewrite <- !nsum_scale. apply nsum_ext. intros q _. ring.
    - rewrite nsum_swap. apply nsum_ext. intros p _. unfold mcomp. rewrite <- nsum_scale_r. reflexivity. }
  transitivity (nsum n (fun p => nsum n (fun b => Jf b i * s (g b p) * nsum n (fun r => nsum n (fun t => nsum n (fun q => Jf r k * Jf t l * Jf q m * s (Rie n xs g gi p r t q))))))).
  { apply nsum_ext. intros p Hp. rewrite (E i p Hi Hp). unfold mcomp, mtr, hmat. rewrite <- nsum_scale_r. reflexivity. }
  rewrite nsum_swap. apply nsum_ext. intros b _.
  transitivity (nsum n (fun p => nsum n (fun r => nsum n (fun t => nsum n (fun q => Jf b i * Jf r k * Jf t l * Jf q m * (s (g b p) * s (Rie n xs g gi p r t q))))))).
  { apply nsum_ext. intros p _. rewrite <- !nsum_scale. apply nsum_ext. intros r _. rewrite <- !nsum_scale. apply nsum_ext. intros t _. rewrite <- !nsum_scale. apply nsum_ext. intros q _. ring. }
  rewrite nsum_swap. apply nsum_ext. intros r _. rewrite nsum_swap. apply nsum_ext. intros t _. rewrite nsum_swap. apply nsum_ext. intros q _.
  rewrite nsum_scale. apply kmul_proper; [reflexivity|]. unfold lowered. rewrite (hom_nsum s) by exact c_hom. apply nsum_ext. intros p _. rewrite (hom_mul _ c_hom). reflexivity.
Qed.

Lemma T4_add f h i k l m : T4 (fun a b c d => f a b c d + h a b c d) i k l m == T4 f i k l m + T4 h i k l m.
Proof.
  unfold T4. rewrite <- nsum_add. apply nsum_ext. intros p _. rewrite <- nsum_add. apply nsum_ext. intros r _. rewrite <- nsum_add. apply nsum_ext. intros t _.
  rewrite <- nsum_add. apply nsum_ext. intros q _. rewrite (hom_add _ c_hom). ring.
Qed.
Lemma T4_opp f i k l m : T4 (fun a b c d => - f a b c d) i k l m == - T4 f i k l m.
Proof.
  unfold T4. rewrite <- nsum_opp. apply nsum_ext. intros p _. rewrite <- nsum_opp. apply nsum_ext. intros r _. rewrite <- nsum_opp. apply nsum_ext. intros t _.
  rewrite <- nsum_opp. apply nsum_ext. intros q _. rewrite (hom_opp s c_hom). ring.
Qed.
Lemma T4_sub f h i k l m : T4 (fun a b c d => f a b c d - h a b c d) i k l m == T4 f i k l m - T4 h i k l m.
Proof.
  unfold T4. rewrite <- nsum_sub. apply nsum_ext. intros p _. rewrite <- nsum_sub. apply nsum_ext. intros r _. rewrite <- nsum_sub. apply nsum_ext. intros t _.
  rewrite <- nsum_sub. apply nsum_ext. intros q _. rewrite (hom_sub s c_hom). ring.
Qed.
Lemma T4_scale c f i k l m : T4 (fun a b e d => c * f a b e d) i k l m == s c * T4 f i k l m.
Proof.
  unfold T4. rewrite <- nsum_scale. apply nsum_ext. intros p _. rewrite <- nsum_scale. apply nsum_ext. intros r _. rewrite <- nsum_scale. apply nsum_ext. intros t _.
  rewrite <- nsum_scale. apply nsum_ext. intros q _. rewrite (hom_mul _ c_hom). ring.
Qed.

Let T2 (f : nat -> nat -> K) (i j : nat) : K := nsum n (fun p => nsum n (fun q => Jf p i * Jf q j * s (f p q))).

(** Products of two tensors of rank two, for the three ways of distributing four indices. *)
Lemma T4_14 f h i k l m : T4 (fun a b c d => f a d * h b c) i k l m == T2 f i m * T2 h k l.
Proof.
  unfold T4, T2. rewrite <- nsum_scale_r. apply nsum_ext. intros p _. 
  transitivity (nsum n (fun r => nsum n (fun t => nsum n (fun q => Jf p i * Jf q m * s (f p q)) * (Jf r k * Jf t l * s (h r t))))).
  - apply nsum_ext. intros r _. apply nsum_ext. intros t _. rewrite <- nsum_scale_r. apply nsum_ext. intros q _. rewrite (hom_mul _ c_hom). ring.
  - rewrite <- nsum_scale. apply nsum_ext. intros r _. apply nsum_scale.
Qed.
Lemma T4_13 f h i k l m : T4 (fun a b c d => f a c * h b d) i k l m == T2 f i l * T2 h k m.
Proof.
  unfold T4, T2. rewrite <- nsum_scale_r. apply nsum_ext. intros p _. 
  transitivity (nsum n (fun r => nsum n (fun q => nsum n (fun t => Jf p i * Jf t l * s (f p t)) * (Jf r k * Jf q m * s (h r q))))).
  - apply nsum_ext. intros r _. rewrite nsum_swap. apply nsum_ext. intros q _. rewrite <- nsum_scale_r. apply nsum_ext. intros t _. rewrite (hom_mul _ c_hom). ring.
  - rewrite <- nsum_scale. apply nsum_ext. intros r _. apply nsum_scale.
Qed.
Lemma T4_ext f h i k l m : (forall a b c d, f a b c d == h a b c d) -> T4 f i k l m == T4 h i k l m.
Proof.
  intros H. unfold T4. apply nsum_ext. intros p _. apply nsum_ext. intros r _. apply nsum_ext. intros t _. apply nsum_ext. intros q _.
  apply kmul_proper; [reflexivity|]. apply (hom_proper _ c_hom). apply H.
Qed.

Lemma wey_change i k l m : (3 <= n)%nat -> (i < n)%nat -> (k < n)%nat -> (l < n)%nat -> (m < n)%nat ->
  Wey n ys g' gi' i k l m == T4 (Wey n xs g gi) i k l m.
Proof.
  intros Hn Hi Hk Hl Hm.
  assert (Eg : forall a b, (a < n)%nat -> (b < n)%nat -> g' a b == T2 g a b) by exact Hg'.
  assert (Er : forall a b, (a < n)%nat -> (b < n)%nat -> Ric n ys g' gi' a b == T2 (Ric n xs g gi) a b) by exact ric_change.
  transitivity (T4 (lowered n g (Rie n xs g gi)) i k l m + T4 (fun i k l m => kinvn (n - 2) * (Ric n xs g gi i m * g k l - Ric n xs g gi i l * g k m + Ric n xs g gi k l * g i m - Ric n xs g gi k m * g i l)) i k l m
     + T4 (fun i k l m => kinvn ((n - 2) * (n - 1)) * (Sca n xs g gi * (g i l * g k m - g i m * g k l))) i k l m).
  - unfold Wey, weyl_of. rewrite (lowered_change i k l m Hi Hk Hl Hm). rewrite !T4_scale, (hom_kinvn s c_hom) by lia. rewrite (hom_kinvn s c_hom) by nia.
    rewrite !T4_sub, T4_add, T4_sub, !T4_14, !T4_13.
    rewrite (T4_ext (fun a b c d => Ric n xs g gi b c * g a d) (fun a b c d => g a d * Ric n xs g gi b c)) by (intros; ring).
    rewrite (T4_ext (fun a b c d => Ric n xs g gi b d * g a c) (fun a b c d => g a c * Ric n xs g gi b d)) by (intros; ring).
    rewrite T4_14, T4_13, sca_change, !Eg, !Er by assumption. ring.
  - rewrite <- !T4_add. apply T4_ext. intros a b c d. reflexivity.
Qed.

(** ** Arrays *)
Lemma moved_act i (f f' : list nat -> K) : valid_cfg i ->
  (forall idx, in_range n (length i) idx -> f' idx == act n (map (jac Jf JI) i) (fun ks => s (f ks)) idx) -> moved n R J Ji i f f'.
Proof.
  intros Vi Hf a (Ca & Ra & Ga). destruct c_spec as (SqJ & SqJi & _ & _).
  destruct (transform_hom n J Ji R i a Ca SqJ SqJi Vi ltac:(lia)) as (b & Eb & Wb & Sb & _ & Gb).
  rewrite Ra in Eb. exists b. split; [exact Eb|]. assert (Rb : rank b = rank a) by (unfold rank; rewrite Sb; reflexivity).
  split; [split; [exact Wb|rewrite Rb, Sb; apply Ca]|]. split; [lia|]. intros idx Hi. rewrite (Hf idx Hi). destruct Ca as [Wa Sa].
  destruct Hi as [Hl Hr]. rewrite Gb by (rewrite Sa, Ra; apply (inb_rng n); split; assumption).
  transitivity (act n (map (jac (hmat (subs_seq R) (mfun J)) (hmat (subs_seq R) (mfun Ji))) i) (fun ks => s (f ks)) idx).
  - apply act_ext; [rewrite map_length; lia|exact Hr|]. intros ks K1 K2. apply (hom_proper _ c_hom). apply Ga. split; [lia|exact K2].
  - apply act_mext; [rewrite map_length; lia|exact Hr|]. 
    assert (HsJ : forall p q, (p < n)%nat -> (q < n)%nat -> hmat (subs_seq R) (mfun J) p q == Jf p q) by exact c_sJ.
    clear - L HsJ. induction i as [|z i IH]; cbn; constructor; [|exact IH]. intros p q Hp Hq. unfold jac. destruct (z =? 1)%Z; [reflexivity|]. apply HsJ; assumption.
Qed.

Lemma moved_inv i (f f' : list nat -> K) : valid_cfg i -> moved n R J Ji i f f' ->
  forall idx, in_range n (length i) idx -> f' idx == act n (map (jac Jf JI) i) (fun ks => s (f ks)) idx.
Proof.
  intros Vi Hm idx Hi. 
  assert (Ha : holds n (length i) (tab (repeat n (length i)) f) f).
  { split; [split; [apply awf_tab|cbn; rewrite repeat_length; reflexivity]|]. split; [unfold rank; cbn; apply repeat_length|].
    intros ks Hk. rewrite aget_tab; [reflexivity|]. destruct Hk. apply (inb_rng n); split; assumption. }
  destruct (Hm _ Ha) as (b & Eb & _ & _ & Gb).
  destruct (moved_act i f (act n (map (jac Jf JI) i) (fun ks => s (f ks))) Vi ltac:(intros; reflexivity) _ Ha) as (b' & Eb' & _ & _ & Gb').
  assert (b' = b) by congruence. subst b'. rewrite <- (Gb idx Hi). apply Gb'. exact Hi.
Qed.

Lemma act4 M N P Q f i j k l :
  act n [M; N; P; Q] f [i; j; k; l] ==
  nsum n (fun p => nsum n (fun q => nsum n (fun r => nsum n (fun t => M i p * N j q * P k r * Q l t * f [p; q; r; t])))).
Proof.
  rewrite act_cons. apply nsum_ext. intros p _. rewrite act3, <- nsum_scale.
  apply nsum_ext. intros q _. rewrite <- nsum_scale. apply nsum_ext. intros r _. rewrite <- nsum_scale. apply nsum_ext. intros t _. ring.
Qed.

Lemma in_range4 idx : in_range n 4 idx -> exists i j k l, idx = [i; j; k; l] /\ (i < n)%nat /\ (j < n)%nat /\ (k < n)%nat /\ (l < n)%nat.
Proof.
  intros [Hl Hr]. destruct idx as [|i [|j [|k [|l [|]]]]]; try discriminate Hl. exists i, j, k, l. 
  inversion Hr as [|? ? H1 Hr1]; subst. inversion Hr1 as [|? ? H2 Hr2]; subst. inversion Hr2 as [|? ? H3 Hr3]; subst. inversion Hr3; subst. auto.
Qed.
Lemma in_range2 idx : in_range n 2 idx -> exists i j, idx = [i; j] /\ (i < n)%nat /\ (j < n)%nat.
Proof.
  intros [Hl Hr]. destruct idx as [|i [|j [|]]]; try discriminate Hl. exists i, j.
  inversion Hr as [|? ? H1 Hr1]; subst. inversion Hr1; subst. auto.
Qed.

Lemma moved2 (f f' : nat -> nat -> K) :
  (forall j v, (j < n)%nat -> (v < n)%nat -> f' j v == T2 f j v) -> moved n R J Ji [-1; -1]%Z (at2 f) (at2 f').
Proof.
  intros H. apply moved_act; [repeat constructor; right; reflexivity|]. intros idx Hi. apply in_range2 in Hi as (i & j & -> & Hi & Hj).
  cbn [map jac Z.eqb Pos.eqb]. rewrite act2. unfold at2. cbn [nth]. apply H; assumption.
Qed.

Lemma moved_riemann : moved n R J Ji [1; -1; -1; -1]%Z (at4 (Rie n xs g gi)) (at4 (Rie n ys g' gi')).
Proof.
  apply moved_act; [repeat (apply Forall_cons; [auto|]); apply Forall_nil|]. intros idx Hi. apply in_range4 in Hi as (i & j & k & l & -> & Hi & Hj & Hk & Hl).
  cbn [map jac Z.eqb Pos.eqb]. rewrite act4. unfold at4. cbn [nth]. apply rie_change; assumption.
Qed.
Lemma moved_weyl : (3 <= n)%nat -> moved n R J Ji [-1; -1; -1; -1]%Z (at4 (Wey n xs g gi)) (at4 (Wey n ys g' gi')).
Proof.
  intros Hn. apply moved_act; [repeat (apply Forall_cons; [auto|]); apply Forall_nil|]. intros idx Hi. apply in_range4 in Hi as (i & j & k & l & -> & Hi & Hj & Hk & Hl).
  cbn [map jac Z.eqb Pos.eqb]. rewrite act4. unfold at4. cbn [nth]. apply wey_change; assumption.
Qed.
Lemma moved_lowered : moved n R J Ji [-1; -1; -1; -1]%Z (at4 (lowered n g (Rie n xs g gi))) (at4 (lowered n g' (Rie n ys g' gi'))).
Proof.
  apply moved_act; [repeat (apply Forall_cons; [auto|]); apply Forall_nil|]. intros idx Hi. apply in_range4 in Hi as (i & j & k & l & -> & Hi & Hj & Hk & Hl).
  cbn [map jac Z.eqb Pos.eqb]. rewrite act4. unfold at4. cbn [nth]. apply lowered_change; assumption.
Qed.
Lemma moved_ricci : moved n R J Ji [-1; -1]%Z (at2 (Ric n xs g gi)) (at2 (Ric n ys g' gi')).
Proof. apply moved2. exact ric_change. Qed.
Lemma moved_einstein : moved n R J Ji [-1; -1]%Z (at2 (Ein n xs g gi)) (at2 (Ein n ys g' gi')).
Proof. apply moved2. exact ein_change. Qed.
Lemma moved_scalar : moved n R J Ji [] (fun _ => Sca n xs g gi) (fun _ => Sca n ys g' gi').
Proof.
  apply moved_act; [constructor|]. intros idx [Hl _]. destruct idx; [|discriminate Hl]. cbn [map]. rewrite act_nil. apply sca_change.
Qed.

Lemma covariant_ext xx G0 zs T T' k idx : in_range n (length zs) idx -> (forall ks, in_range n (length zs) ks -> T ks == T' ks) ->
  covariant_of n xx G0 zs T k idx == covariant_of n xx G0 zs T' k idx.
Proof.
  intros [Hl Hr] H. rewrite !(covariant_conn n) by reflexivity. rewrite (kdiff_proper _ _ _ (H idx (conj Hl Hr))).
  rewrite (conn_ext n _ zs T T' idx Hl Hr (fun ks K1 K2 => H ks (conj K1 K2))). reflexivity.
Qed.

Lemma moved_derived i f f' : valid_cfg i -> without_symbols n ys (length i) f -> moved n R J Ji i f f' ->
  moved n R J Ji (-1 :: i)%Z (derived n xs g gi i f) (derived n ys g' gi' i f').
Proof.
  intros Vi Wi Hm. assert (Hf := moved_inv i f f' Vi Hm). apply moved_act; [constructor; [right; reflexivity|exact Vi]|].
  intros idx [Hl Hr]. destruct idx as [|k idx]; [discriminate Hl|]. cbn in Hl. injection Hl as Hl. inversion Hr as [|? ? Hk Hr']; subst.
  unfold derived at 1. cbn [hd tl]. rewrite (covariant_ext _ _ i f' _ k idx (conj Hl Hr') Hf).
  rewrite (covariant_change n (cx xs) (cx ys) s Jf JI (Gam n xs g gi) (Gam n ys g' gi') c_hom c_inverse c_chain c_connection i f k idx Hk (conj Hl Hr')).
  - cbn [map]. rewrite act_cons. apply nsum_ext. intros m _. unfold jac at 3. cbn [Z.eqb]. apply kmul_proper; [reflexivity|]. reflexivity.
  - intros ks l Hks Hl'. apply (Wi (cx ys l) ks); [|exact Hks]. destruct HX as (Hn & Lx & Ly & _). apply nth_In. lia.
Qed.

End ChangeR.

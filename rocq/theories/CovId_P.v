(** Identities of covariant derivatives: the second Bianchi identity and the divergence of the
    Einstein tensor. *)
From Verif Require Import Alg Alg_P Spec SpecCurv SpecCov Curv_P.
Local Open Scope K_scope.

Section Identities.
Context {A : AlgOps} {L : AlgLaws A} {D : DiffLaws A}.
Add Ring Kring : kring (setoid keq_equiv kring_ext).
Variables (n : nat) (x : nat -> string) (g gi : nat -> nat -> K).
Hypothesis Hs : symmetric_fun n g.
Hypothesis Hinv : inverse_fun n g gi.
Notation G := (christoffel_of n x g gi).
Notation R := (riemann_of n x G).
Notation Rc := (ricci_of n R).
Notation Lo := (lowered n g R).

(** *** Written out *)
Lemma nsum1 f : nsum 1 f == f 0%nat.
Proof. unfold nsum. cbn. ring. Qed.
Lemma nsum2 f : nsum 2 f == f 0%nat + f 1%nat.
Proof. unfold nsum. cbn. ring. Qed.
Lemma nsum4 f : nsum 4 f == f 0%nat + f 1%nat + f 2%nat + f 3%nat.
Proof. unfold nsum. cbn. ring. Qed.
Notation cov := (covariant_of n x G).
Lemma cov1 T k i : cov [-1]%Z (fun l => T (nth 0 l 0%nat)) k [i] == kdiff (x k) (T i) - nsum n (fun d => G d k i * T d).
Proof. unfold covariant_of, replaced. cbn [length]. rewrite ?nsum1, ?nsum2, ?nsum4. cbn [nth firstn skipn app Z.eqb Pos.eqb]. ring. Qed.
Lemma cov2 T k i j : cov [-1; -1]%Z (at2 T) k [i; j] == covariant2 n x G T k i j.
Proof. unfold covariant_of, replaced, at2, covariant2. cbn [length]. rewrite ?nsum1, ?nsum2, ?nsum4. cbn [nth firstn skipn app Z.eqb Pos.eqb]. ring. Qed.
Definition DR (a b c d e : nat) : K :=
  kdiff (x e) (R a b c d) + nsum n (fun s => G a e s * R s b c d) - nsum n (fun s => G s e b * R a s c d)
    - nsum n (fun s => G s e c * R a b s d) - nsum n (fun s => G s e d * R a b c s).
Definition DL (a b c d e : nat) : K :=
  kdiff (x e) (Lo a b c d) - nsum n (fun s => G s e a * Lo s b c d) - nsum n (fun s => G s e b * Lo a s c d)
    - nsum n (fun s => G s e c * Lo a b s d) - nsum n (fun s => G s e d * Lo a b c s).
Lemma cov_riemann a b c d e : cov [1; -1; -1; -1]%Z (at4 R) e [a; b; c; d] == DR a b c d e.
Proof. unfold covariant_of, replaced, at4, DR. cbn [length]. rewrite ?nsum1, ?nsum2, ?nsum4. cbn [nth firstn skipn app Z.eqb Pos.eqb]. ring. Qed.

(** *** The second Bianchi identity *)
Definition X (c d e a b : nat) : K := nsum n (fun s => kdiff (x c) (G a d s) * G s e b).
Definition Y (c d e a b : nat) : K := nsum n (fun s => G a c s * kdiff (x d) (G s e b)).
Definition Z3 (c d e a b : nat) : K := nsum n (fun s => nsum n (fun l => G a c s * (G s d l * G l e b))).
Lemma diff_riemann a b c d e : kdiff (x e) (R a b c d) ==
  kdiff (x e) (kdiff (x c) (G a d b)) - kdiff (x e) (kdiff (x d) (G a c b)) + X e c d a b + Y c e d a b - X e d c a b - Y d e c a b.
Proof.
  assert (E : forall p q, kdiff (x e) (nsum n (fun l => G a p l * G l q b)) == X e p q a b + Y p e q a b).
  { intros p q. rewrite kdiff_nsum. unfold X, Y. rewrite <- nsum_add. apply nsum_ext. intros l _. apply kdiff_mul. }
  unfold riemann_of. rewrite kdiff_sub, kdiff_add, kdiff_sub, !E. ring.
Qed.
Lemma left_riemann a b c d e : nsum n (fun s => G a e s * R s b c d) == Y e c d a b - Y e d c a b + Z3 e c d a b - Z3 e d c a b.
Proof.
  assert (E : forall p q, Z3 e p q a b == nsum n (fun s => G a e s * nsum n (fun l => G s p l * G l q b))).
  { intros p q. apply nsum_ext. intros s _. apply nsum_scale. }
  rewrite !E. unfold Y. rewrite <- nsum_sub, <- nsum_add, <- nsum_sub. apply nsum_ext. intros s _. unfold riemann_of. ring.
Qed.
Lemma right_riemann a b c d e : nsum n (fun s => G s e b * R a s c d) == X c d e a b - X d c e a b + Z3 c d e a b - Z3 d c e a b.
Proof.
  assert (E : forall p q, Z3 p q e a b == nsum n (fun s => nsum n (fun l => G a p l * G l q s) * G s e b)).
  { intros p q. unfold Z3. rewrite nsum_swap. apply nsum_ext. intros s _. rewrite <- nsum_scale_r. apply nsum_ext. intros l _. ring. }
  rewrite !E. unfold X. rewrite <- nsum_sub, <- nsum_add, <- nsum_sub. apply nsum_ext. intros s _. unfold riemann_of. ring.
Qed.
Lemma DR_last_pair a b c d e : DR a b c d e == - DR a b d c e.
Proof.
  unfold DR. rewrite (kdiff_proper (x e) _ _ (riemann_antisym n x g gi a b c d)), kdiff_opp.
  rewrite (nsum_ext n (fun s => G a e s * R s b c d) (fun s => - (G a e s * R s b d c))) by (intros s _; rewrite (riemann_antisym n x g gi s b c d); ring).
  rewrite (nsum_ext n (fun s => G s e b * R a s c d) (fun s => - (G s e b * R a s d c))) by (intros s _; rewrite (riemann_antisym n x g gi a s c d); ring).
  rewrite (nsum_ext n (fun s => G s e c * R a b s d) (fun s => - (G s e c * R a b d s))) by (intros s _; rewrite (riemann_antisym n x g gi a b s d); ring).
  rewrite (nsum_ext n (fun s => G s e d * R a b c s) (fun s => - (G s e d * R a b s c))) by (intros s _; rewrite (riemann_antisym n x g gi a b c s); ring).
  rewrite !nsum_opp. ring.
Qed.
Lemma second_bianchi a b c d e : (c < n)%nat -> (d < n)%nat -> (e < n)%nat -> DR a b c d e + DR a b d e c + DR a b e c d == k0.
Proof.
  intros Hc Hd He. unfold DR.
  assert (E1 : forall p q r, nsum n (fun s => G s p q * R a b r s) == - nsum n (fun s => G s p q * R a b s r)).
  { intros p q r. rewrite <- nsum_opp. apply nsum_ext. intros s _. rewrite (riemann_antisym n x g gi a b r s). ring. }
  assert (E2 : forall p q r, (p < n)%nat -> (q < n)%nat -> nsum n (fun s => G s p q * R a b s r) == nsum n (fun s => G s q p * R a b s r)).
  { intros p q r Hp Hq. apply nsum_ext. intros s _. rewrite (G_sym n x g gi Hs s p q Hp Hq). reflexivity. }
  rewrite !E1, !diff_riemann, !left_riemann, !right_riemann.
  rewrite (E2 e c d), (E2 e d c), (E2 d c e) by assumption.
  rewrite (kdiff_comm (x d) (x c)), (kdiff_comm (x e) (x c)), (kdiff_comm (x e) (x d)). ring.
Qed.

(** *** Derivatives of the metric *)
Lemma dg k i j : (i < n)%nat -> (j < n)%nat -> (k < n)%nat ->
  kdiff (x k) (g i j) == nsum n (fun s => G s k i * g s j) + nsum n (fun s => G s k j * g i s).
Proof. intros Hi Hj Hk. assert (H := metric_compatible n x g gi Hs Hinv k i j Hk Hi Hj). unfold covariant2 in H. transitivity (k0 + nsum n (fun s => G s k i * g s j) + nsum n (fun s => G s k j * g i s)); [rewrite <- H|]; ring. Qed.
Lemma kdiff_delta s i j : kdiff s (kdelta i j) == k0.
Proof. unfold kdelta. destruct (Nat.eqb i j); [apply kdiff_1|apply kdiff_0]. Qed.
Lemma nsum_move (a : nat -> K) (b : nat -> nat -> K) : nsum n (fun i => a i * nsum n (fun j => b i j)) == nsum n (fun j => nsum n (fun i => a i * b i j)).
Proof. rewrite nsum_swap. apply nsum_ext. intros i _. rewrite nsum_scale. reflexivity. Qed.
Lemma gi_g c s : (c < n)%nat -> (s < n)%nat -> nsum n (fun a => gi c a * g a s) == kdelta c s.
Proof. intros Hc H. apply (proj2 Hinv c s Hc H). Qed.
Lemma g_gi s d : (s < n)%nat -> (d < n)%nat -> nsum n (fun b => g s b * gi b d) == kdelta s d.
Proof. intros H Hd. apply (proj1 Hinv s d H Hd). Qed.
Lemma dgi e c d : (c < n)%nat -> (d < n)%nat -> (e < n)%nat ->
  kdiff (x e) (gi c d) == - nsum n (fun s => G c e s * gi s d) - nsum n (fun s => G d e s * gi c s).
Proof.
  intros Hc Hd He.
  assert (H0 : forall a, (a < n)%nat -> nsum n (fun b => kdiff (x e) (g a b) * gi b d) + nsum n (fun b => g a b * kdiff (x e) (gi b d)) == k0).
  { intros a Ha. rewrite <- nsum_add. rewrite <- (kdiff_delta (x e) a d), <- (kdiff_proper (x e) _ _ (g_gi a d Ha Hd)), kdiff_nsum.
    apply nsum_ext. intros b _. rewrite kdiff_mul. reflexivity. }
  assert (H1 : nsum n (fun a => gi c a * nsum n (fun b => kdiff (x e) (g a b) * gi b d)) + nsum n (fun a => gi c a * nsum n (fun b => g a b * kdiff (x e) (gi b d))) == k0).
  { rewrite <- nsum_add. apply nsum_zero'. intros a Ha.
    transitivity (gi c a * (nsum n (fun b => kdiff (x e) (g a b) * gi b d) + nsum n (fun b => g a b * kdiff (x e) (gi b d)))); [ring|]. rewrite (H0 a Ha). ring. }
  assert (H2 : nsum n (fun a => gi c a * nsum n (fun b => g a b * kdiff (x e) (gi b d))) == kdiff (x e) (gi c d)).
  { rewrite nsum_move. rewrite <- (nsum_delta_l n c (fun b => kdiff (x e) (gi b d)) Hc). apply nsum_ext. intros b Hb.
    rewrite <- (gi_g c b Hc Hb), <- nsum_scale_r. apply nsum_ext. intros a _. ring. }
  assert (H3 : nsum n (fun a => gi c a * nsum n (fun b => kdiff (x e) (g a b) * gi b d)) == nsum n (fun s => G d e s * gi c s) + nsum n (fun s => G c e s * gi s d)).
  { transitivity (nsum n (fun a => gi c a * nsum n (fun s => G s e a * nsum n (fun b => g s b * gi b d))) + nsum n (fun b => nsum n (fun s => G s e b * nsum n (fun a => gi c a * g a s)) * gi b d)).
    - transitivity (nsum n (fun a => gi c a * nsum n (fun b => nsum n (fun s => G s e a * g s b) * gi b d)) + nsum n (fun a => gi c a * nsum n (fun b => nsum n (fun s => G s e b * g a s) * gi b d))).
      + rewrite <- nsum_add. apply nsum_ext. intros a Ha. transitivity (gi c a * (nsum n (fun b => nsum n (fun s => G s e a * g s b) * gi b d) + nsum n (fun b => nsum n (fun s => G s e b * g a s) * gi b d))); [|ring].
        apply kmul_proper; [reflexivity|]. rewrite <- nsum_add. apply nsum_ext. intros b Hb. rewrite (dg e a b Ha Hb He). ring.
      + apply kadd_proper.
        * apply nsum_ext. intros a _. apply kmul_proper; [reflexivity|]. rewrite nsum_move. apply nsum_ext. intros b _. rewrite <- nsum_scale_r. apply nsum_ext. intros s _. ring.
        * rewrite nsum_move. apply nsum_ext. intros b _. rewrite nsum_move, <- nsum_scale_r. apply nsum_ext. intros a _. rewrite <- nsum_scale_r, <- !nsum_scale, <- nsum_scale_r. apply nsum_ext. intros s _. ring.
    - apply kadd_proper.
      + apply nsum_ext. intros a _. rewrite (nsum_ext n _ (fun s => G s e a * kdelta s d)) by (intros s Hsn; rewrite (g_gi s d Hsn Hd); reflexivity). rewrite (nsum_delta_r n d (fun s => G s e a) Hd). ring.
      + apply nsum_ext. intros b _. apply kmul_proper; [|reflexivity]. rewrite (nsum_ext n _ (fun s => G s e b * kdelta c s)) by (intros s Hsn; rewrite (gi_g c s Hc Hsn); reflexivity). apply (nsum_delta_r' n c (fun s => G s e b) Hc). }
  rewrite H2, H3 in H1. transitivity (k0 - nsum n (fun s => G c e s * gi s d) - nsum n (fun s => G d e s * gi c s)); [|ring]. rewrite <- H1. ring.
Qed.

(** *** Contraction and differentiation *)
Lemma trace_diff T e : (e < n)%nat -> kdiff (x e) (trace_of n gi T) == nsum n (fun b => nsum n (fun d => gi b d * covariant2 n x G T e b d)).
Proof.
  intros He. unfold trace_of, covariant2. rewrite kdiff_nsum.
  assert (E1 : nsum n (fun b => nsum n (fun d => gi b d * nsum n (fun l => G l e b * T l d))) == nsum n (fun b => nsum n (fun d => nsum n (fun s => G b e s * gi s d) * T b d))).
  { transitivity (nsum n (fun b => nsum n (fun l => nsum n (fun d => gi b d * (G l e b * T l d))))); [apply nsum_ext; intros b _; apply nsum_move|].
    rewrite nsum_swap. apply nsum_ext. intros l _. rewrite nsum_swap. apply nsum_ext. intros d _. rewrite <- nsum_scale_r. apply nsum_ext. intros b _. ring. }
  assert (E2 : nsum n (fun b => nsum n (fun d => gi b d * nsum n (fun l => G l e d * T b l))) == nsum n (fun b => nsum n (fun d => nsum n (fun s => G d e s * gi b s) * T b d))).
  { apply nsum_ext. intros b _. rewrite nsum_move. apply nsum_ext. intros l _. rewrite <- nsum_scale_r. apply nsum_ext. intros d _. ring. }
  transitivity (nsum n (fun b => nsum n (fun d => gi b d * kdiff (x e) (T b d))) - nsum n (fun b => nsum n (fun d => gi b d * nsum n (fun l => G l e b * T l d)))
     - nsum n (fun b => nsum n (fun d => gi b d * nsum n (fun l => G l e d * T b l)))).
  - rewrite E1, E2, <- !nsum_sub. apply nsum_ext. intros b Hb. rewrite kdiff_nsum, <- !nsum_sub. apply nsum_ext. intros d Hd.
    rewrite kdiff_mul, (dgi e b d Hb Hd He). ring.
  - rewrite <- !nsum_sub. apply nsum_ext. intros b _. rewrite <- !nsum_sub. apply nsum_ext. intros d _. ring.
Qed.
Lemma ricci_DR e b d : covariant2 n x G Rc e b d == nsum n (fun a => DR a b a d e).
Proof.
  unfold covariant2, ricci_of, DR. rewrite kdiff_nsum.
  assert (E : nsum n (fun a => nsum n (fun s => G a e s * R s b a d)) == nsum n (fun a => nsum n (fun s => G s e a * R a b s d))) by apply nsum_swap.
  rewrite (nsum_move (fun l => G l e b) (fun l a => R a l a d)), (nsum_move (fun l => G l e d) (fun l a => R a b a l)).
  rewrite !nsum_sub, !nsum_add, E. ring.
Qed.
Lemma lower_DR p b c d e : (p < n)%nat -> (e < n)%nat -> nsum n (fun a => g p a * DR a b c d e) == DL p b c d e.
Proof.
  intros Hp He. unfold DL, DR.
  assert (E : forall (H : nat -> K) (T : nat -> nat -> K), nsum n (fun s => H s * nsum n (fun a => g p a * T a s)) == nsum n (fun a => g p a * nsum n (fun s => H s * T a s))).
  { intros H T. rewrite nsum_move. apply nsum_ext. intros a _. rewrite <- nsum_scale. apply nsum_ext. intros s _. ring. }
  assert (E1 : kdiff (x e) (Lo p b c d) == nsum n (fun s => G s e p * Lo s b c d) + nsum n (fun a => g p a * nsum n (fun s => G a e s * R s b c d)) + nsum n (fun a => g p a * kdiff (x e) (R a b c d))).
  { unfold lowered. rewrite kdiff_nsum.
    transitivity (nsum n (fun a => nsum n (fun s => G s e p * g s a) * R a b c d) + nsum n (fun a => nsum n (fun s => G s e a * g p s) * R a b c d) + nsum n (fun a => g p a * kdiff (x e) (R a b c d))).
    - rewrite <- !nsum_add. apply nsum_ext. intros a Ha. rewrite kdiff_mul, (dg e p a Hp Ha He). ring.
    - apply kadd_proper; [|reflexivity]. apply kadd_proper.
      + rewrite nsum_move. apply nsum_ext. intros a _. rewrite <- nsum_scale_r. apply nsum_ext. intros s _. ring.
      + rewrite nsum_move. apply nsum_ext. intros s _. rewrite <- nsum_scale_r. apply nsum_ext. intros a _. ring. }
  rewrite E1. unfold lowered. rewrite (E (fun s => G s e b) (fun a s => R a s c d)), (E (fun s => G s e c) (fun a s => R a b s d)), (E (fun s => G s e d) (fun a s => R a b c s)).
  transitivity (nsum n (fun a => g p a * nsum n (fun s => G a e s * R s b c d)) + nsum n (fun a => g p a * kdiff (x e) (R a b c d))
    - nsum n (fun a => g p a * nsum n (fun s => G s e b * R a s c d)) - nsum n (fun a => g p a * nsum n (fun s => G s e c * R a b s d)) - nsum n (fun a => g p a * nsum n (fun s => G s e d * R a b c s))); [|ring].
  rewrite <- nsum_add, <- !nsum_sub. apply nsum_ext. intros a _. ring.
Qed.
Lemma raise_DL a b c d e : (a < n)%nat -> (e < n)%nat -> DR a b c d e == nsum n (fun p => gi a p * DL p b c d e).
Proof.
  intros Ha He. rewrite (nsum_ext n _ (fun p => gi a p * nsum n (fun q => g p q * DR q b c d e))) by (intros p Hp; rewrite lower_DR by assumption; reflexivity).
  rewrite nsum_move. rewrite <- (nsum_delta_l n a (fun q => DR q b c d e) Ha) at 1. apply nsum_ext. intros q Hq. rewrite <- (gi_g a q Ha Hq), <- nsum_scale_r. apply nsum_ext. intros p _. ring.
Qed.
Lemma ricci_DL e b d : (e < n)%nat -> covariant2 n x G Rc e b d == nsum n (fun a => nsum n (fun p => gi a p * DL p b a d e)).
Proof. intros He. rewrite ricci_DR. apply nsum_ext. intros a Ha. apply raise_DL; assumption. Qed.
Lemma DL_bianchi p b c d e : (p < n)%nat -> (c < n)%nat -> (d < n)%nat -> (e < n)%nat -> DL p b c d e + DL p b d e c + DL p b e c d == k0.
Proof.
  intros Hp Hc Hd He. rewrite <- !lower_DR by assumption. rewrite <- !nsum_add. apply nsum_zero'. intros a _.
  transitivity (g p a * (DR a b c d e + DR a b d e c + DR a b e c d)); [ring|]. rewrite second_bianchi by assumption. ring.
Qed.
Lemma DL_last_pair p b c d e : (p < n)%nat -> (e < n)%nat -> DL p b c d e == - DL p b d c e.
Proof. intros Hp He. rewrite <- !lower_DR, <- nsum_opp by assumption. apply nsum_ext. intros a _. rewrite (DR_last_pair a b c d e). ring. Qed.
Lemma DL_first_pair p b c d e : (p < n)%nat -> (b < n)%nat -> (c < n)%nat -> (d < n)%nat -> DL p b c d e == - DL b p c d e.
Proof.
  intros Hp Hb Hc Hd. unfold DL. assert (F := lowered_first_pair n x g gi Hs Hinv).
  rewrite (kdiff_proper (x e) _ _ (F p b c d Hp Hb Hc Hd)), kdiff_opp.
  rewrite (nsum_ext n (fun s => G s e p * Lo s b c d) (fun s => - (G s e p * Lo b s c d))) by (intros s H; rewrite (F s b c d) by assumption; ring).
  rewrite (nsum_ext n (fun s => G s e b * Lo p s c d) (fun s => - (G s e b * Lo s p c d))) by (intros s H; rewrite (F p s c d) by assumption; ring).
  rewrite (nsum_ext n (fun s => G s e c * Lo p b s d) (fun s => - (G s e c * Lo b p s d))) by (intros s H; rewrite (F p b s d) by assumption; ring).
  rewrite (nsum_ext n (fun s => G s e d * Lo p b c s) (fun s => - (G s e d * Lo b p c s))) by (intros s H; rewrite (F p b c s) by assumption; ring).
  rewrite !nsum_opp. ring.
Qed.

(** *** The divergence of the Einstein tensor *)
Notation S := (trace_of n gi Rc).
Definition divergence2 (T : nat -> nat -> K) (j : nat) : K := nsum n (fun k => nsum n (fun l => gi k l * covariant2 n x G T k l j)).
Lemma divergence_ricci e : (e < n)%nat -> kdiff (x e) S == divergence2 Rc e + divergence2 Rc e.
Proof.
  intros He. assert (Gs := gi_sym n g gi Hs Hinv).
  set (C := fun F : nat -> nat -> nat -> nat -> K => nsum n (fun b => nsum n (fun d => gi b d * nsum n (fun a => nsum n (fun p => gi a p * F p b a d))))).
  assert (T1 : kdiff (x e) S == C (fun p b a d => DL p b a d e)).
  { rewrite trace_diff by exact He. apply nsum_ext. intros b _. apply nsum_ext. intros d _. rewrite ricci_DL by exact He. reflexivity. }
  assert (T3 : C (fun p b a d => DL p b e a d) == - divergence2 Rc e).
  { unfold divergence2. rewrite nsum_swap, <- nsum_opp. apply nsum_ext. intros b Hb. rewrite <- nsum_opp. apply nsum_ext. intros d Hd. rewrite (Gs d b Hd Hb).
    rewrite ricci_DL by exact Hd. transitivity (gi b d * - nsum n (fun a => nsum n (fun p => gi a p * DL p b a e d))); [|ring]. apply kmul_proper; [reflexivity|].
    rewrite <- nsum_opp. apply nsum_ext. intros a Ha. rewrite <- nsum_opp. apply nsum_ext. intros p Hp. rewrite (DL_last_pair p b e a d Hp Hd). ring. }
  assert (T2 : C (fun p b a d => DL p b d e a) == - divergence2 Rc e).
  { transitivity (nsum n (fun a => nsum n (fun p => - (gi a p * nsum n (fun d => nsum n (fun b => gi d b * DL b p d e a)))))).
    - transitivity (nsum n (fun b => nsum n (fun a => nsum n (fun p => nsum n (fun d => gi b d * (gi a p * DL p b d e a)))))).
      + apply nsum_ext. intros b _. rewrite nsum_move. apply nsum_ext. intros a _. rewrite nsum_swap. apply nsum_ext. intros d _. symmetry. apply nsum_scale.
      + rewrite nsum_swap. apply nsum_ext. intros a Ha. rewrite nsum_swap. apply nsum_ext. intros p Hp. rewrite nsum_swap.
        transitivity (- nsum n (fun d => gi a p * nsum n (fun b => gi d b * DL b p d e a))); [|rewrite nsum_scale; reflexivity].
        rewrite <- nsum_opp. apply nsum_ext. intros d Hd. rewrite <- nsum_scale, <- nsum_opp. apply nsum_ext. intros b Hb.
        rewrite (Gs d b Hd Hb), (DL_first_pair p b d e a) by assumption. ring.
    - unfold divergence2. rewrite <- nsum_opp. apply nsum_ext. intros a Ha. rewrite <- nsum_opp. apply nsum_ext. intros p Hp. rewrite (ricci_DL a p e Ha). reflexivity. }
  assert (Sum : C (fun p b a d => DL p b a d e) + C (fun p b a d => DL p b d e a) + C (fun p b a d => DL p b e a d) == k0).
  { unfold C. rewrite <- !nsum_add. apply nsum_zero'. intros b Hb. rewrite <- !nsum_add. apply nsum_zero'. intros d Hd.
    transitivity (gi b d * (nsum n (fun a => nsum n (fun p => gi a p * DL p b a d e)) + nsum n (fun a => nsum n (fun p => gi a p * DL p b d e a)) + nsum n (fun a => nsum n (fun p => gi a p * DL p b e a d)))); [ring|].
    transitivity (gi b d * k0); [|ring]. apply kmul_proper; [reflexivity|]. rewrite <- !nsum_add. apply nsum_zero'. intros a Ha. rewrite <- !nsum_add. apply nsum_zero'. intros p Hp.
    transitivity (gi a p * (DL p b a d e + DL p b d e a + DL p b e a d)); [ring|]. rewrite DL_bianchi by assumption. ring. }
  rewrite T2, T3, <- T1 in Sum. transitivity (k0 + divergence2 Rc e + divergence2 Rc e); [|ring]. rewrite <- Sum. ring.
Qed.
Lemma divergence_einstein e : (e < n)%nat -> divergence2 (einstein_of g Rc S) e == k0.
Proof.
  intros He.
  assert (E : forall k l, (k < n)%nat -> (l < n)%nat -> covariant2 n x G (einstein_of g Rc S) k l e == covariant2 n x G Rc k l e - kinvn 2 * kdiff (x k) S * g l e).
  { intros k l Hk Hl. assert (M := metric_compatible n x g gi Hs Hinv k l e Hk Hl He). unfold covariant2 in *. unfold einstein_of.
    rewrite kdiff_sub, kdiff_mul, kdiff_halved.
    rewrite (nsum_ext n (fun s => G s k l * (Rc s e - kinvn 2 * S * g s e)) (fun s => G s k l * Rc s e - kinvn 2 * S * (G s k l * g s e))) by (intros; ring).
    rewrite (nsum_ext n (fun s => G s k e * (Rc l s - kinvn 2 * S * g l s)) (fun s => G s k e * Rc l s - kinvn 2 * S * (G s k e * g l s))) by (intros; ring).
    rewrite !nsum_sub, !nsum_scale.
    transitivity (kdiff (x k) (Rc l e) - nsum n (fun s => G s k l * Rc s e) - nsum n (fun s => G s k e * Rc l s) - kinvn 2 * kdiff (x k) S * g l e - kinvn 2 * S * (kdiff (x k) (g l e) - nsum n (fun s => G s k l * g s e) - nsum n (fun s => G s k e * g l s))); [ring|].
    rewrite M. ring. }
  unfold divergence2. rewrite (nsum_ext n _ (fun k => nsum n (fun l => gi k l * covariant2 n x G Rc k l e) - kinvn 2 * (kdiff (x k) S * kdelta k e))).
  - rewrite nsum_sub, nsum_scale, (nsum_delta_r n e (fun k => kdiff (x k) S) He). rewrite (divergence_ricci e He). fold (divergence2 Rc e). rewrite half_double. ring.
  - intros k Hk. rewrite <- (gi_g k e Hk He). rewrite <- !nsum_scale, <- nsum_sub. apply nsum_ext. intros l Hl. rewrite (E k l Hk Hl). ring.
Qed.
End Identities.

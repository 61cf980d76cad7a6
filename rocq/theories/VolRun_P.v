(** Volume elements, Christoffel symbols, divergences and curls, as computed in a session. *)
From Verif Require Import Alg Alg_P Arr Arr_P Spec UtilsM Act_P TensorM WorldM SpecWorld World_P Registry_P CalcM SpecCalc Calc_P CurvM SpecCurv SpecCov SpecDeriv Curv_P CurvRun_P Curv2_P Cov4_P Deriv_P SpecLine LineM Det_P Line_P SpecVolume Jacobi_P Voss_P.
Local Open Scope nat_scope.

Section VolRun.
Context {A : AlgOps} {L : AlgLaws A} {D : DiffLaws A}.
Add Ring Kring : kring (setoid keq_equiv kring_ext).
Variables (n : nat) (m c : oid) (name : string) (xs : list string) (g gi : nat -> nat -> K).
Notation session w := (metric_session w n m c name xs g gi).
Notation known w := (known_results n xs g gi w m c name).
Notation value w := (tensor_value w n m c).
Notation Gam := (Gam n xs g gi).
Notation yields := (yields n xs g gi).
Notation v := (determinant n g).

Lemma session_volume w coords : session w -> coords = None \/ coords = Some c ->
  exists e, volume_element m coords w = (Ok e, w) /\ keq e v.
Proof.
  intros (_ & _ & _ & Pn & (Cc & _) & _ & _ & _ & Cm & _ & _ & _ & _ & o & G & Ho & _ & _ & _ & _ & (Oc & _ & d & Hd & Ht) & Hv) Hc.
  destruct (Ht (-1)%Z (-1)%Z ltac:(constructor; [auto|constructor; [auto|constructor]])) as (Hg & (Wa & Sa) & Ra).
  assert (E : display_components m coords w = (Ok (c, G (-1) (-1))%Z, w)).
  { assert (E1 : metric_check m c w = (Ok true, w)).
    { unfold metric_check. rewrite (bind_ok _ _ _ _ _ (getobj_ok _ _ _ Ho)). unfold dmem. rewrite Hd. reflexivity. }
    assert (E2 : lookup m c [-1; -1]%Z w = (Ok (G (-1) (-1))%Z, w)).
    { unfold lookup. rewrite (bind_ok _ _ _ _ _ (getobj_ok _ _ _ Ho)). rewrite Hd. unfold mopt at 1. unfold mbind, mret. rewrite Hg. reflexivity. }
    unfold display_components. assert (E3 : forall k : bool -> M (oid * arr), mbind (match coords with Some c0 => isinstance c0 CCoordinates | None => mret true end) k w = k true w).
    { intros k. destruct Hc as [-> | ->]; unfold mbind, isinstance; rewrite ?Cc; reflexivity. }
    rewrite E3. cbn [negb]. rewrite (bind_ok _ _ _ _ _ (getobj_ok _ _ _ Ho)). rewrite Oc.
    assert (E4 : forall k : oid -> M (oid * arr), mbind (match coords with Some c0 => mret c0 | None => mopt EAttributeError (Some c) end) k w = k c w).
    { intros k. destruct Hc as [-> | ->]; reflexivity. }
    rewrite E4. rewrite (bind_ok _ _ _ _ _ E1). change (mbind (mret tt) ?k w) with (k tt w). cbv beta. rewrite (bind_ok _ _ _ _ _ E2). reflexivity. }
  eexists. unfold volume_element, mbind. rewrite E. split; [reflexivity|]. rewrite simp_ok.
  assert (Sh : shape (G (-1) (-1))%Z = [n; n]) by (unfold cubic in *; rewrite Ra in Sa; exact Sa).
  rewrite Sh. cbn [nth]. rewrite laplace_determinant. apply determinant_ext. intros i j Hi Hj. apply (Hv i j Hi Hj).
Qed.

Lemma volume_christoffel w coords : session w -> known w -> coords = None \/ coords = Some c ->
  exists e, volume_element m coords w = (Ok e, w) /\ keq e v /\ (exists e', keq (kmul e e') k1) /\
    gives n xs g gi (calc_christoffel m) m c name [(name ++ " Christoffel")%string] [1; -1; -1]%Z (fun idx => Gam (nth 0 idx 0) (nth 1 idx 0) (nth 2 idx 0)) w /\
    forall i, i < n -> keq (kdiff (nth i xs ""%string) e) (kmul (kmul (knat 2) e) (nsum n (fun k => Gam k i k))) /\
      keq (kdiff (nth i xs ""%string) e) (kmul (kmul (knat 2) e) (nsum n (fun k => Gam k k i))).
Proof.
  intros HS Ka Hc. destruct (session_volume w coords HS Hc) as (e & E & Ee). destruct (Deriv_P.session_sym n m c name xs g gi w HS) as [Sg Ig].
  exists e. split; [exact E|]. split; [exact Ee|]. split.
  { exists (determinant n gi). rewrite Ee. rewrite <- determinant_mul. rewrite <- (determinant_one n). apply determinant_ext. intros i j Hi Hj. apply Ig; assumption. }
  split; [exact (christoffel_gives n m c name xs g gi w HS Ka)|]. intros i Hi. rewrite (kdiff_proper _ _ _ Ee), Ee.
  split; [apply (contracted n (cx xs) g gi Sg Ig i Hi)|apply (contracted' n (cx xs) g gi Sg Ig i Hi)].
Qed.

Lemma weighted_ext x a b T T' idx : keq a b -> (forall k, k < n -> keq (T (k :: idx)) (T' (k :: idx))) ->
  keq (weighted_divergence n x a T idx) (weighted_divergence n x b T' idx).
Proof.
  intros E H. unfold weighted_divergence. apply nsum_ext. intros k Hk. rewrite E, (H k Hk). reflexivity.
Qed.

Lemma divergence_volume w t r h syms a coords : session w -> known w -> value w t (repeat 1%Z (S r)) h -> ~ named w "TEMP" t ->
  antisymmetric_first n (S r) h -> NoDup (a :: syms) -> length syms = r -> two_letters_free (a :: syms) -> coords = None \/ coords = Some c ->
  exists e f, volume_element m coords w = (Ok e, w) /\
    yields (derivative t a (a :: syms)) m c name [(name ++ " Christoffel")%string] syms (repeat 1%Z r) f w /\
    forall idx, in_range n r idx -> keq (kmul (kmul (knat 2) e) (f idx)) (weighted_divergence n (cx xs) e h idx).
Proof.
  intros HS Ka Vt Nt At Ns Ls H2 Hc. destruct (session_volume w coords HS Hc) as (e & E & Ee). destruct (Deriv_P.session_sym n m c name xs g gi w HS) as [Sg Ig].
  assert (Vi : valid_cfg (repeat 1%Z (S r))) by (apply Forall_forall; intros z Hz; apply repeat_spec in Hz; auto).
  exists e. eexists. split; [exact E|]. split.
  - exact (divergence_value n m c name xs g gi w t _ h [] syms a HS Ka Vt Nt Vi Ns ltac:(cbn [app length]; rewrite repeat_length; congruence) H2).
  - intros idx Hi. rewrite (weighted_ext (cx xs) e v h h idx Ee ltac:(reflexivity)), Ee. cbn [length]. apply (voss_weyl n (cx xs) g gi Sg Ig r h idx At Hi).
Qed.

Lemma divergence_covector w t h a coords : session w -> known w -> value w t [-1]%Z h -> ~ named w "TEMP" t -> two_letters_free [a] ->
  coords = None \/ coords = Some c ->
  exists e f, volume_element m coords w = (Ok e, w) /\
    yields (derivative t a [a]) m c name [(name ++ " Christoffel")%string] [] [] f w /\
    keq (kmul (kmul (knat 2) e) (f [])) (weighted_divergence n (cx xs) e (raised_vector n gi h) []).
Proof.
  intros HS Ka Vt Nt H2 Hc. destruct (session_volume w coords HS Hc) as (e & E & Ee). destruct (Deriv_P.session_sym n m c name xs g gi w HS) as [Sg Ig].
  exists e. eexists. split; [exact E|]. split.
  - exact (divergence_value n m c name xs g gi w t _ h [] [] a HS Ka Vt Nt ltac:(constructor; [auto|constructor]) ltac:(repeat constructor; intros []) eq_refl H2).
  - rewrite (weighted_ext (cx xs) e v _ _ [] Ee ltac:(reflexivity)), Ee. cbn [length]. apply (voss_weyl_lower n (cx xs) g gi Sg Ig h).
Qed.

(** The Laplacian: the gradient of a scalar, made a tensor with Calc, and its divergence *)
Lemma laplacian w t h nm a coords : session w -> known w -> value w t [] h -> ~ named w "TEMP" t ->
  nm <> "TEMP"%string -> ~ In nm (curvature_names name) -> two_letters_free [a] -> coords = None \/ coords = Some c ->
  exists e f, volume_element m coords w = (Ok e, w) /\
    yields (let! z := derivative t a [] in let! t' := run_calc z nm "" [] in derivative t' a [a]) m c name [nm; (name ++ " Christoffel")%string] [] [] f w /\
    keq (kmul (kmul (knat 2) e) (f [])) (weighted_divergence n (cx xs) e (fun idx => nsum n (fun b => kmul (gi (nth 0 idx 0) b) (kdiff (nth b xs ""%string) (h [])))) []).
Proof.
  intros HS Ka Vt Nt Nn Nc H2 Hc. destruct (session_volume w coords HS Hc) as (e & E & Ee). destruct (Deriv_P.session_sym n m c name xs g gi w HS) as [Sg Ig].
  assert (Na : NoDup [a]) by (repeat constructor; intros []).
  assert (Y := gradient_value n m c name xs g gi w t [] h [] a HS Ka Vt Nt (Forall_nil _) Na eq_refl H2).
  destruct (publish_yields n m c name xs g gi (derivative t a []) _ [a] [-1]%Z _ w nm "" Nn Nc Na eq_refl ltac:(constructor; [auto|constructor]) Y) as (t1 & w1 & E1 & Nt1 & V1 & Ad1 & S1 & K1).
  destruct (divergence_covector w1 t1 _ a coords S1 K1 V1 Nt1 H2 Hc) as (e1 & f & F1 & (z & w2 & a2 & E2 & R2 & Ha2 & Ad2 & S2 & K2) & F2).
  exists e, f. split; [exact E|]. split.
  - exists z, w2, a2. split.
    { apply bind_inv in E1 as (z0 & w0 & E0 & E1). rewrite (bind_ok _ _ _ _ _ E0), (bind_ok _ _ _ _ _ E1). exact E2. }
    split; [exact R2|]. split; [exact Ha2|]. split; [|auto]. assert (Rw : registry_ok w2) by apply S2.
    eapply only_adds_then; [exact Rw| | |exact Ad1|exact Ad2]; intros y Hy; clear - Hy; cbn in Hy |- *; tauto.
  - destruct (session_volume w1 coords S1 Hc) as (e2 & F3 & Ee2). rewrite F1 in F3. injection F3 as <-.
    assert (Q : keq e e1) by (rewrite Ee, Ee2; reflexivity). etransitivity; [|etransitivity; [exact F2|]]; [rewrite Q; reflexivity|].
    apply weighted_ext; [symmetry; exact Q|]. intros k Hk. unfold raised_vector. cbn [nth]. apply nsum_ext. intros b Hb. apply kmul_proper; [reflexivity|].
    unfold covariant_of. cbn [nth tl length]. change (nsum 0 ?f) with (@k0 A). unfold cx. ring.
Qed.

(** Curls *)
Lemma curl_computed w t h a b : session w -> known w -> value w t [-1]%Z h -> ~ named w "TEMP" t -> a <> b -> two_letters_free [a; b] ->
  exists f, yields (derivative t a [b]) m c name [(name ++ " Christoffel")%string] [a; b] [-1; -1]%Z f w /\
    forall p q, p < n -> q < n -> keq (ksub (f [p; q]) (f [q; p])) (ksub (kdiff (nth p xs ""%string) (h [q])) (kdiff (nth q xs ""%string) (h [p]))).
Proof.
  intros HS Ka Vt Nt Nab H2. destruct (Deriv_P.session_sym n m c name xs g gi w HS) as [Sg Ig]. eexists. split.
  - exact (gradient_value n m c name xs g gi w t [-1]%Z h [b] a HS Ka Vt Nt ltac:(constructor; [auto|constructor]) ltac:(repeat constructor; cbn; intuition congruence) eq_refl H2).
  - intros p q Hp Hq. cbn [nth tl]. apply (curl n (cx xs) g gi Sg h p q Hp Hq).
Qed.
Lemma cyclic_computed w t h a b d : session w -> known w -> value w t [-1; -1]%Z h -> ~ named w "TEMP" t ->
  (forall p q, p < n -> q < n -> keq (h [q; p]) (kopp (h [p; q]))) -> NoDup [a; b; d] -> two_letters_free [a; b; d] ->
  exists f, yields (derivative t a [b; d]) m c name [(name ++ " Christoffel")%string] [a; b; d] [-1; -1; -1]%Z f w /\
    forall p q s, p < n -> q < n -> s < n -> keq (kadd (kadd (f [p; q; s]) (f [q; s; p])) (f [s; p; q]))
      (kadd (kadd (kdiff (nth p xs ""%string) (h [q; s])) (kdiff (nth q xs ""%string) (h [s; p]))) (kdiff (nth s xs ""%string) (h [p; q]))).
Proof.
  intros HS Ka Vt Nt At Ns H2. destruct (Deriv_P.session_sym n m c name xs g gi w HS) as [Sg Ig]. eexists. split.
  - exact (gradient_value n m c name xs g gi w t [-1; -1]%Z h [b; d] a HS Ka Vt Nt ltac:(constructor; [auto|constructor; [auto|constructor]]) Ns eq_refl H2).
  - intros p q s Hp Hq Hs. cbn [nth tl]. apply (cyclic n (cx xs) g gi Sg h p q s Hp Hq Hs At).
Qed.
End VolRun.

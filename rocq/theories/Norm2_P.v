(** What the norm squared is. *)
From Verif Require Import Alg Alg_P Arr Arr_P Spec UtilsM Utils_P Arr2_P Act_P RL_P Tensor_P TensorM WorldM SpecWorld CalcM SpecCalc CurvM SpecCurv Curv_P Norm_P.
Local Open Scope nat_scope.
Local Open Scope K_scope.

Section Norm2.
Context {A : AlgOps} {L : AlgLaws A}.
Add Ring Kring : kring (setoid keq_equiv kring_ext).
Variables (n : nat) (g gi : nat -> nat -> K).
Hypotheses (Hsym : symmetric_fun n g) (Hinv : inverse_fun n g gi).

Lemma kprod_sym Ms (ks ls : list nat) : Forall (symmetric_fun n) Ms -> length ks = length Ms -> length ls = length Ms -> rng n ks -> rng n ls ->
  kprod (map (fun mik => fst mik (fst (snd mik)) (snd (snd mik))) (combine Ms (combine ks ls))) ==
  kprod (map (fun mik => fst mik (fst (snd mik)) (snd (snd mik))) (combine Ms (combine ls ks))).
Proof.
  intros H. revert ks ls. induction H as [|M Ms HM H IH]; intros [|k ks] [|l ls] L1 L2 R1 R2; cbn in L1, L2; try discriminate; [reflexivity|].
  inversion R1; subst. inversion R2; subst. cbn [combine map kprod fst snd]. rewrite (HM k l), IH by (assumption || congruence). reflexivity.
Qed.
Lemma act_symmetric Ms u v : Forall (symmetric_fun n) Ms ->
  lsum (tuples n (length Ms)) (fun ks => act n Ms u ks * v ks) == lsum (tuples n (length Ms)) (fun ks => u ks * act n Ms v ks).
Proof.
  intros H. unfold act.
  transitivity (lsum (tuples n (length Ms)) (fun ks => lsum (tuples n (length Ms)) (fun ls =>
     kprod (map (fun mik => fst mik (fst (snd mik)) (snd (snd mik))) (combine Ms (combine ks ls))) * u ls * v ks))).
  { apply lsum_ext. intros ks _. rewrite <- lsum_scale_r. reflexivity. }
  rewrite lsum_swap. apply lsum_ext. intros ls Hl. rewrite <- lsum_scale. apply lsum_ext. intros ks Hk.
  apply in_tuples in Hl as [L1 R1]. apply in_tuples in Hk as [L2 R2]. rewrite (kprod_sym Ms ks ls) by assumption. ring.
Qed.

Lemma gi_symmetric : symmetric_fun n gi.
Proof. apply (gi_sym n g gi); assumption. Qed.
Lemma conv_symmetric s t : symmetric_fun n (conv g gi s t).
Proof.
  unfold conv. destruct (s =? t)%Z; [|destruct (t =? 1)%Z; [apply gi_symmetric|exact Hsym]].
  intros i j _ _. unfold kdelta. destruct (Nat.eqb_spec i j) as [->|N]; [rewrite Nat.eqb_refl; reflexivity|].
  destruct (Nat.eqb_spec j i); [congruence|reflexivity].
Qed.
Lemma conv_opp s t : (s = 1 \/ s = -1)%Z -> (t = 1 \/ t = -1)%Z -> conv g gi (- t) (- s) = conv g gi s t.
Proof. intros [-> | ->] [-> | ->]; reflexivity. Qed.
Lemma converted_opp i j h : valid_cfg i -> valid_cfg j -> converted n g gi (map Z.opp j) (map Z.opp i) h = converted n g gi i j h.
Proof.
  intros Vi Vj. unfold converted. f_equal. revert j Vj. induction Vi as [|z i Hz Vi IH]; intros j Vj; [destruct j; reflexivity|].
  destruct Vj as [|y j Hy Vj]; [reflexivity|]. cbn [map combine fst snd]. rewrite conv_opp by assumption. rewrite IH by exact Vj. reflexivity.
Qed.

(** The norm squared does not depend on the configuration. *)
Theorem norm_config i j h : valid_cfg i -> valid_cfg j -> length j = length i -> norm_of n g gi j (converted n g gi i j h) == norm_of n g gi i h.
Proof.
  intros Vi Vj Lj. unfold norm_of. rewrite Lj.
  set (Ms := map (fun st => conv g gi (fst st) (snd st)) (combine i j)).
  assert (LM : length Ms = length i) by (unfold Ms; rewrite map_length, combine_length; lia).
  assert (SM : Forall (symmetric_fun n) Ms) by (apply Forall_forall; intros M HM; apply in_map_iff in HM as (p & <- & _); apply conv_symmetric).
  change (converted n g gi i j h) with (act n Ms h) at 1.
  rewrite <- LM. rewrite (act_symmetric Ms h _ SM). rewrite LM. apply lsum_ext. intros ks Hks. apply in_tuples in Hks as [Lk Rk].
  rewrite <- LM in Lk.
  apply kmul_proper; [reflexivity|]. change (act n Ms ?v ks) with (converted n g gi i j v ks).
  rewrite <- (converted_opp i j _ Vi Vj).
  transitivity (converted n g gi (map Z.opp j) (map Z.opp i) (converted n g gi i (map Z.opp j) h) ks).
  - unfold converted at 1 4. apply act_ext; [rewrite map_length, combine_length, !map_length; lia|exact Rk|]. intros ls Hl Hr.
    apply converted_comp; try assumption; [apply opp_valid, Vj|rewrite map_length; exact Lj|split; [congruence|exact Hr]].
  - apply converted_comp; try assumption; try apply opp_valid; try assumption; [rewrite map_length; exact Lj|apply map_length|split; [congruence|exact Rk]].
Qed.

Lemma norm_scalar h : norm_of n g gi [] h == h [] * h [].
Proof. unfold norm_of, converted. cbn [length tuples map combine lsum]. rewrite act_nil. ring. Qed.
Lemma norm_vector z h : (z = 1 \/ z = -1)%Z ->
  norm_of n g gi [z] h == nsum n (fun i => nsum n (fun j => (if (z =? 1)%Z then g i j else gi i j) * (h [i] * h [j]))).
Proof.
  intros Hz. unfold norm_of. cbn [length]. rewrite lsum_tuples_S. apply nsum_ext. intros i _. cbn [tuples lsum].
  unfold converted. cbn [map combine fst snd]. rewrite act_cons.
  transitivity (nsum n (fun j => h [i] * (conv g gi z (- z) i j * h [j]))).
  { rewrite nsum_scale. transitivity (h [i] * nsum n (fun k => conv g gi z (- z) i k * act n [] (fun ks => h (k :: ks)) [])); [ring|].
    apply kmul_proper; [reflexivity|]. apply nsum_ext. intros k _. rewrite act_nil. reflexivity. }
  apply nsum_ext. intros j _. destruct Hz as [-> | ->]; cbn [conv Z.eqb Pos.eqb Z.opp]; unfold conv; cbn [Z.eqb Pos.eqb]; ring.
Qed.
Lemma nsum_knat k : nsum k (fun _ => k1) == knat k.
Proof.
  unfold nsum. transitivity (knat (length (seq 0 k))); [|rewrite seq_length; reflexivity].
  induction (seq 0 k) as [|x l IH]; [reflexivity|]. cbn [lsum length knat]. rewrite IH. reflexivity.
Qed.
(** The norm squared of the metric is the dimension. *)
Theorem norm_metric : norm_of n g gi [-1; -1]%Z (at2 g) == knat n.
Proof.
  unfold norm_of. cbn [length]. rewrite lsum_tuples_S. rewrite <- nsum_knat. apply nsum_ext. intros i Hi.
  rewrite lsum_tuples_S. cbn [tuples lsum]. unfold converted. cbn [map combine fst snd Z.opp].
  transitivity (nsum n (fun j => g i j * gi j i)); [|rewrite (proj1 Hinv i i Hi Hi); unfold kdelta; rewrite Nat.eqb_refl; reflexivity].
  apply nsum_ext. intros j Hj. transitivity (g i j * act n [conv g gi (-1) 1; conv g gi (-1) 1]%Z (at2 g) [i; j]); [cbn [at2 nth]; unfold at2; cbn [nth]; ring|].
  apply kmul_proper; [reflexivity|]. rewrite act_cons.
  transitivity (nsum n (fun k => gi i k * nsum n (fun l => gi j l * g k l))).
  { apply nsum_ext. intros k _. unfold conv at 1. cbn [Z.eqb Pos.eqb]. apply kmul_proper; [reflexivity|]. rewrite act_cons.
    apply nsum_ext. intros l _. rewrite act_nil. reflexivity. }
  transitivity (nsum n (fun k => gi i k * kdelta j k)).
  { apply nsum_ext. intros k Hk. apply kmul_proper; [reflexivity|]. rewrite <- (proj2 Hinv j k Hj Hk). apply nsum_ext. intros l Hl. rewrite (Hsym k l Hk Hl). reflexivity. }
  rewrite <- (gi_symmetric i j Hi Hj).
  apply nsum_delta_r', Hj.
Qed.
End Norm2.

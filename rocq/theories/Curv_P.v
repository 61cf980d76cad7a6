(** Identities of curvature. *)
From Verif Require Import Alg Alg_P Spec SpecCurv.
Local Open Scope K_scope.

Section CurvP.
Context {A : AlgOps} {L : AlgLaws A} {D : DiffLaws A}.
Add Ring Kring : kring (setoid keq_equiv kring_ext).
Variables (n : nat) (x : nat -> string) (g gi : nat -> nat -> K).
Hypothesis Hs : symmetric_fun n g.
Hypothesis Hinv : inverse_fun n g gi.

(** *** One half *)
Lemma half_double a : kinvn 2 * (a + a) == a.
Proof. assert (H := kinvn_ok 2 ltac:(discriminate)). cbn in H. transitivity ((k1 + (k1 + k0)) * kinvn 2 * a); [ring|]. rewrite H. ring. Qed.
Lemma half_zero a : a == - a -> a == k0.
Proof. intros H. rewrite <- (half_double a). rewrite H at 2. ring. Qed.
Lemma kdiff_half s : kdiff s (kinvn 2) == k0.
Proof.
  assert (H := kinvn_ok 2 ltac:(discriminate)). cbn in H.
  assert (E : kdiff s (kinvn 2) + kdiff s (kinvn 2) == k0).
  { rewrite <- kdiff_add. transitivity (kdiff s k1); [apply kdiff_proper; rewrite <- H; ring|apply kdiff_1]. }
  rewrite <- (half_double (kdiff s (kinvn 2))), E. ring.
Qed.
Lemma kdiff_halved s a : kdiff s (kinvn 2 * a) == kinvn 2 * kdiff s a.
Proof. rewrite kdiff_mul, kdiff_half. ring. Qed.

(** *** The inverse is symmetric *)
Lemma gi_sym : symmetric_fun n gi.
Proof.
  intros i j Hi Hj.
  rewrite <- (nsum_delta_r' n j (fun a => gi i a) Hj).
  transitivity (nsum n (fun a => nsum n (fun b => gi i a * (gi j b * g b a)))).
  { apply nsum_ext. intros a Ha. rewrite <- (proj2 Hinv j a Hj Ha). rewrite <- nsum_scale. reflexivity. }
  rewrite nsum_swap. rewrite <- (nsum_delta_r' n i (fun b => gi j b) Hi). apply nsum_ext. intros b Hb.
  rewrite <- (proj2 Hinv i b Hi Hb), <- nsum_scale. apply nsum_ext. intros a Ha. rewrite (Hs b a Hb Ha). ring.
Qed.

(** *** Christoffel symbols with the first index lowered *)
Definition Gl (l j k : nat) : K := kinvn 2 * (kdiff (x j) (g l k) + kdiff (x k) (g j l) - kdiff (x l) (g j k)).
Notation G := (christoffel_of n x g gi).
Lemma G_Gl i j k : G i j k == nsum n (fun l => gi i l * Gl l j k).
Proof. apply nsum_ext. intros l _. unfold Gl. ring. Qed.
Lemma g_G r j k : (r < n)%nat -> nsum n (fun i => g r i * G i j k) == Gl r j k.
Proof.
  intros Hr. transitivity (nsum n (fun i => nsum n (fun l => g r i * gi i l * Gl l j k))).
  { apply nsum_ext. intros i _. rewrite G_Gl, <- nsum_scale. apply nsum_ext. intros l _. ring. }
  rewrite nsum_swap. rewrite <- (nsum_delta_l n r (fun l => Gl l j k) Hr). apply nsum_ext. intros l Hl.
  rewrite nsum_scale_r, (proj1 Hinv r l Hr Hl). reflexivity.
Qed.
Lemma g_diff k i j : (i < n)%nat -> (j < n)%nat -> kdiff (x k) (g i j) == kdiff (x k) (g j i).
Proof. intros Hi Hj. apply kdiff_proper, Hs; assumption. Qed.
Lemma Gl_sym l j k : (l < n)%nat -> (j < n)%nat -> (k < n)%nat -> Gl l j k == Gl l k j.
Proof. intros Hl Hj Hk. unfold Gl. rewrite (g_diff k j l), (g_diff l j k), (g_diff j l k) by assumption. ring. Qed.
Lemma G_sym i j k : (j < n)%nat -> (k < n)%nat -> G i j k == G i k j.
Proof. intros Hj Hk. rewrite !G_Gl. apply nsum_ext. intros l Hl. rewrite (Gl_sym l j k) by assumption. reflexivity. Qed.
Lemma diff_g k i j : (i < n)%nat -> (j < n)%nat -> (k < n)%nat -> kdiff (x k) (g i j) == Gl i k j + Gl j k i.
Proof.
  intros Hi Hj Hk. unfold Gl. rewrite (g_diff k j i), (g_diff i k j), (g_diff j k i) by assumption.
  transitivity (kinvn 2 * (kdiff (x k) (g i j) + kdiff (x k) (g i j))); [symmetry; apply half_double|ring].
Qed.
Lemma metric_compatible i j k : (i < n)%nat -> (j < n)%nat -> (k < n)%nat -> covariant2 n x G g i j k == k0.
Proof.
  intros Hi Hj Hk. unfold covariant2. rewrite (diff_g i j k) by assumption.
  rewrite <- (g_G j i k Hj), <- (g_G k i j Hk).
  rewrite (nsum_ext n (fun l => G l i j * g l k) (fun l => g k l * G l i j)) by (intros l Hl; rewrite (Hs l k Hl Hk); ring).
  rewrite (nsum_ext n (fun l => G l i k * g j l) (fun l => g j l * G l i k)) by (intros l Hl; ring). ring.
Qed.

(** *** Riemann *)
Notation R := (riemann_of n x G).
Lemma riemann_antisym r s m v : R r s m v == - R r s v m.
Proof. unfold riemann_of. ring. Qed.
Lemma riemann_bianchi r s m v : (s < n)%nat -> (m < n)%nat -> (v < n)%nat -> R r s m v + R r m v s + R r v s m == k0.
Proof.
  intros H1 H2 H3. unfold riemann_of.
  assert (E : forall i a b c, (a < n)%nat -> (b < n)%nat -> nsum n (fun l => G i c l * G l a b) == nsum n (fun l => G i c l * G l b a)).
  { intros i a b c Ha Hb. apply nsum_ext. intros l _. rewrite (G_sym l a b) by assumption. reflexivity. }
  rewrite (E r v s m), (E r m s v), (E r m v s) by assumption.
  rewrite (kdiff_proper (x m) (G r v s) (G r s v)), (kdiff_proper (x v) (G r m s) (G r s m)), (kdiff_proper (x s) (G r v m) (G r m v)) by (apply G_sym; assumption).
  ring.
Qed.

Definition Q (a b c d : nat) : K := nsum n (fun l => nsum n (fun k => gi l k * (Gl l a b * Gl k c d))).
Lemma Q_sum a b c d : nsum n (fun l => Gl l a b * G l c d) == Q a b c d.
Proof. apply nsum_ext. intros l _. rewrite G_Gl, <- nsum_scale. apply nsum_ext. intros k _. ring. Qed.
Lemma Q_swap a b c d : Q a b c d == Q c d a b.
Proof. unfold Q. rewrite nsum_swap. apply nsum_ext. intros l Hl. apply nsum_ext. intros k Hk. rewrite (gi_sym k l Hk Hl). ring. Qed.
Lemma Q_sym a b c d : (a < n)%nat -> (b < n)%nat -> (c < n)%nat -> (d < n)%nat -> Q a b c d == Q b a d c.
Proof. intros. apply nsum_ext. intros l Hl. apply nsum_ext. intros k Hk. rewrite (Gl_sym l a b), (Gl_sym k c d) by assumption. reflexivity. Qed.

Definition dd (a b i j : nat) : K := kdiff (x a) (kdiff (x b) (g i j)).
Lemma dd_swap a b i j : dd a b i j == dd b a i j.
Proof. apply kdiff_comm. Qed.
Lemma dd_sym a b i j : (i < n)%nat -> (j < n)%nat -> dd a b i j == dd a b j i.
Proof. intros Hi Hj. apply kdiff_proper, g_diff; assumption. Qed.
Lemma diff_Gl a r j k : kdiff (x a) (Gl r j k) == kinvn 2 * (dd a j r k + dd a k j r - dd a r j k).
Proof. unfold Gl. rewrite kdiff_halved, kdiff_sub, kdiff_add. reflexivity. Qed.

Lemma lowered_first r s m v : (r < n)%nat -> (s < n)%nat -> (m < n)%nat -> (v < n)%nat ->
  lowered n g R r s m v == kdiff (x m) (Gl r v s) - kdiff (x v) (Gl r m s) - Q m r v s + Q v r m s.
Proof.
  intros Hr Hs' Hm Hv. unfold lowered.
  assert (E1 : forall a b, (a < n)%nat -> (b < n)%nat -> nsum n (fun l => g r l * kdiff (x a) (G l b s)) == kdiff (x a) (Gl r b s) - nsum n (fun l => Gl r a l * G l b s) - Q a r b s).
  { intros a b Ha Hb. rewrite <- (kdiff_proper (x a) _ _ (g_G r b s Hr)), kdiff_nsum, <- Q_sum, <- !nsum_sub.
    apply nsum_ext. intros l Hl. rewrite kdiff_mul, (diff_g a r l) by assumption. ring. }
  assert (E2 : forall a b, nsum n (fun l => g r l * nsum n (fun k => G l a k * G k b s)) == nsum n (fun l => Gl r a l * G l b s)).
  { intros a b. transitivity (nsum n (fun l => nsum n (fun k => g r l * G l a k * G k b s))).
    - apply nsum_ext. intros l _. rewrite <- nsum_scale. apply nsum_ext. intros k _. ring.
    - rewrite nsum_swap. apply nsum_ext. intros k _. rewrite nsum_scale_r, (g_G r a k Hr). reflexivity. }
  transitivity (nsum n (fun l => g r l * kdiff (x m) (G l v s)) - nsum n (fun l => g r l * kdiff (x v) (G l m s))
    + nsum n (fun l => g r l * nsum n (fun k => G l m k * G k v s)) - nsum n (fun l => g r l * nsum n (fun k => G l v k * G k m s))).
  - rewrite <- nsum_sub, <- nsum_add, <- nsum_sub. apply nsum_ext. intros l _. unfold riemann_of. ring.
  - rewrite !E1, !E2 by assumption. ring.
Qed.
Lemma lowered_second r s m v : (r < n)%nat -> (s < n)%nat -> (m < n)%nat -> (v < n)%nat ->
  lowered n g R r s m v == kinvn 2 * (dd m s v r - dd m r v s - dd v s m r + dd v r m s) - Q m r v s + Q v r m s.
Proof. intros. rewrite lowered_first, !diff_Gl by assumption. rewrite (dd_swap v m r s). ring. Qed.

Lemma lowered_first_pair r s m v : (r < n)%nat -> (s < n)%nat -> (m < n)%nat -> (v < n)%nat ->
  lowered n g R r s m v == - lowered n g R s r m v.
Proof. intros. rewrite !lowered_second by assumption. rewrite (Q_swap m s v r), (Q_swap v s m r). ring. Qed.
Lemma lowered_last_pair r s m v : lowered n g R r s m v == - lowered n g R r s v m.
Proof. unfold lowered. rewrite <- nsum_opp. apply nsum_ext. intros l _. rewrite (riemann_antisym l s m v). ring. Qed.
Lemma lowered_pairs r s m v : (r < n)%nat -> (s < n)%nat -> (m < n)%nat -> (v < n)%nat ->
  lowered n g R r s m v == lowered n g R m v r s.
Proof.
  intros. rewrite !lowered_second by assumption.
  rewrite (dd_swap r v s m), (dd_swap r m s v), (dd_swap s v r m), (dd_swap s m r v).
  rewrite (dd_sym v r s m), (dd_sym m r s v), (dd_sym v s r m), (dd_sym m s r v) by assumption.
  rewrite (Q_sym r m s v), (Q_sym s m r v) by assumption. rewrite (Q_swap m s v r). ring.
Qed.
Lemma lowered_bianchi r s m v : (s < n)%nat -> (m < n)%nat -> (v < n)%nat ->
  lowered n g R r s m v + lowered n g R r m v s + lowered n g R r v s m == k0.
Proof.
  intros. unfold lowered. rewrite <- !nsum_add. apply nsum_zero'. intros l Hl.
  transitivity (g r l * (R l s m v + R l m v s + R l v s m)); [ring|]. rewrite riemann_bianchi by assumption. ring.
Qed.

(** *** Ricci *)
Lemma raised i s m v : (i < n)%nat -> R i s m v == nsum n (fun p => gi i p * lowered n g R p s m v).
Proof.
  intros Hi. unfold lowered. transitivity (nsum n (fun p => nsum n (fun l => gi i p * g p l * R l s m v))).
  - rewrite nsum_swap. rewrite <- (nsum_delta_l n i (fun l => R l s m v) Hi) at 1. apply nsum_ext. intros l Hl.
    rewrite nsum_scale_r, (proj2 Hinv i l Hi Hl). reflexivity.
  - apply nsum_ext. intros p _. rewrite <- nsum_scale. apply nsum_ext. intros l _. ring.
Qed.
Notation Rc := (ricci_of n R).
Lemma ricci_lowered i j : Rc i j == nsum n (fun l => nsum n (fun p => gi l p * lowered n g R p i l j)).
Proof. apply nsum_ext. intros l Hl. apply raised, Hl. Qed.
Lemma ricci_sym i j : (i < n)%nat -> (j < n)%nat -> Rc i j == Rc j i.
Proof.
  intros Hi Hj. rewrite !ricci_lowered. rewrite nsum_swap. apply nsum_ext. intros l Hl. apply nsum_ext. intros p Hp.
  rewrite (gi_sym p l Hp Hl), (lowered_pairs l i p j) by assumption. reflexivity.
Qed.

(** *** Einstein *)
Lemma gi_g_left i k : (i < n)%nat -> (k < n)%nat -> nsum n (fun l => gi i l * g k l) == kdelta i k.
Proof. intros Hi Hk. rewrite <- (proj2 Hinv i k Hi Hk). apply nsum_ext. intros l Hl. rewrite (Hs k l Hk Hl). reflexivity. Qed.
Lemma trace_metric : trace_of n gi g == knat n.
Proof.
  unfold trace_of. transitivity (nsum n (fun _ => k1)); [|rewrite nsum_const; ring]. apply nsum_ext. intros i Hi.
  rewrite (gi_g_left i i Hi Hi). unfold kdelta. rewrite Nat.eqb_refl. reflexivity.
Qed.
Lemma einstein_sym S i j : (i < n)%nat -> (j < n)%nat -> einstein_of g Rc S i j == einstein_of g Rc S j i.
Proof. intros Hi Hj. unfold einstein_of. rewrite (ricci_sym i j Hi Hj), (Hs i j Hi Hj). reflexivity. Qed.
Lemma einstein_trace (T : nat -> nat -> K) S : trace_of n gi T == S -> trace_of n gi (einstein_of g T S) == S - kinvn 2 * (knat n * S).
Proof.
  intros HT. transitivity (trace_of n gi T - kinvn 2 * S * trace_of n gi g).
  - unfold trace_of, einstein_of. rewrite <- nsum_scale, <- nsum_sub. apply nsum_ext. intros i _. rewrite <- nsum_scale, <- nsum_sub.
    apply nsum_ext. intros j _. ring.
  - rewrite HT, trace_metric. ring.
Qed.

(** *** Weyl *)
Notation S := (trace_of n gi Rc).
Notation W := (weyl_of n g (lowered n g R) Rc S).
Lemma weyl_first_pair i k l m : (i < n)%nat -> (k < n)%nat -> (l < n)%nat -> (m < n)%nat -> W i k l m == - W k i l m.
Proof. intros. unfold weyl_of. rewrite (lowered_first_pair i k l m) by assumption. ring. Qed.
Lemma weyl_last_pair i k l m : W i k l m == - W i k m l.
Proof. unfold weyl_of. rewrite (lowered_last_pair i k l m). ring. Qed.
Lemma weyl_pairs i k l m : (i < n)%nat -> (k < n)%nat -> (l < n)%nat -> (m < n)%nat -> W i k l m == W l m i k.
Proof.
  intros. unfold weyl_of. rewrite (lowered_pairs i k l m) by assumption.
  rewrite (ricci_sym i m), (ricci_sym i l), (ricci_sym k l), (ricci_sym k m) by assumption.
  rewrite (Hs i l), (Hs k m), (Hs i m), (Hs k l) by assumption. ring.
Qed.

Lemma kinvn_unique a b : (b <> 0)%nat -> knat b * a == k1 -> a == kinvn b.
Proof. intros Hb H. assert (E := kinvn_ok b Hb). transitivity (a * (knat b * kinvn b)); [rewrite E; ring|]. transitivity (knat b * a * kinvn b); [ring|]. rewrite H. ring. Qed.
Lemma kinvn_mul a b : (a <> 0)%nat -> (b <> 0)%nat -> knat b * kinvn (a * b) == kinvn a.
Proof.
  intros Ha Hb. apply kinvn_unique; [exact Ha|]. rewrite <- (kinvn_ok (a * b)) by (apply Nat.neq_mul_0; auto). rewrite knat_mul. ring.
Qed.
Lemma knat_pred k : (2 <= k)%nat -> knat k == k1 + k1 + knat (k - 2) /\ knat k == k1 + knat (k - 1).
Proof. intros H. destruct k as [|[|k]]; [lia|lia|]. cbn [Nat.sub knat]. rewrite Nat.sub_0_r. split; cbn; ring. Qed.

Lemma weyl_trace13 k m : (3 <= n)%nat -> (k < n)%nat -> (m < n)%nat -> nsum n (fun i => nsum n (fun l => gi i l * W i k l m)) == k0.
Proof.
  intros Hn Hk Hm. set (f1 := kinvn (n - 2)). set (f2 := kinvn ((n - 2) * (n - 1))).
  assert (T1 : nsum n (fun i => nsum n (fun l => gi i l * lowered n g R i k l m)) == Rc k m).
  { rewrite ricci_lowered, nsum_swap. apply nsum_ext. intros l Hl. apply nsum_ext. intros p Hp. rewrite (gi_sym p l Hp Hl). reflexivity. }
  assert (T2 : forall a, (a < n)%nat -> nsum n (fun i => nsum n (fun l => gi i l * (Rc i a * g k l))) == Rc k a).
  { intros a Ha. rewrite <- (nsum_delta_l' n k (fun i => Rc i a) Hk). apply nsum_ext. intros i Hi. rewrite <- (gi_g_left i k Hi Hk), <- nsum_scale_r.
    apply nsum_ext. intros l _. ring. }
  assert (T3 : nsum n (fun i => nsum n (fun l => gi i l * (Rc i l * g k m))) == S * g k m).
  { unfold trace_of. rewrite <- nsum_scale_r. apply nsum_ext. intros i _. rewrite <- nsum_scale_r. apply nsum_ext. intros l _. ring. }
  assert (T4 : nsum n (fun i => nsum n (fun l => gi i l * (Rc k l * g i m))) == Rc k m).
  { rewrite nsum_swap. rewrite <- (nsum_delta_l' n m (fun l => Rc k l) Hm). apply nsum_ext. intros l Hl.
    rewrite <- (gi_g_left l m Hl Hm), <- nsum_scale_r. apply nsum_ext. intros i Hi. rewrite (gi_sym i l Hi Hl), (Hs i m Hi Hm). ring. }
  assert (T5 : forall c, nsum n (fun i => nsum n (fun l => gi i l * (c * g i l))) == knat n * c).
  { intros c. rewrite <- trace_metric. unfold trace_of. rewrite <- nsum_scale_r. apply nsum_ext. intros i _. rewrite <- nsum_scale_r. apply nsum_ext. intros l _. ring. }
  assert (T6 : nsum n (fun i => nsum n (fun l => gi i l * (g i m * g k l))) == g k m).
  { rewrite <- (nsum_delta_l' n k (fun i => g i m) Hk). apply nsum_ext. intros i Hi. rewrite <- (gi_g_left i k Hi Hk), <- nsum_scale_r.
    apply nsum_ext. intros l _. ring. }
  transitivity (nsum n (fun i => nsum n (fun l => gi i l * lowered n g R i k l m))
    + f1 * (nsum n (fun i => nsum n (fun l => gi i l * (Rc i m * g k l))) - nsum n (fun i => nsum n (fun l => gi i l * (Rc i l * g k m)))
       + nsum n (fun i => nsum n (fun l => gi i l * (Rc k l * g i m))) - nsum n (fun i => nsum n (fun l => gi i l * (Rc k m * g i l))))
    + f2 * (S * (nsum n (fun i => nsum n (fun l => gi i l * (g k m * g i l))) - nsum n (fun i => nsum n (fun l => gi i l * (g i m * g k l)))))).
  { rewrite <- nsum_sub, <- nsum_sub, <- nsum_add, <- nsum_sub, <- !nsum_scale, <- !nsum_add. apply nsum_ext. intros i _.
    rewrite <- nsum_sub, <- nsum_sub, <- nsum_add, <- nsum_sub, <- !nsum_scale, <- !nsum_add. apply nsum_ext. intros l _. unfold weyl_of. fold f1 f2. ring. }
  rewrite T1, (T2 m Hm), T3, T4, !T5, T6.
  destruct (knat_pred n ltac:(lia)) as [E1 E2].
  assert (E3 : knat (n - 2) * f1 == k1) by (apply kinvn_ok; lia).
  assert (E4 : knat (n - 1) * f2 == f1) by (apply kinvn_mul; lia).
  transitivity (Rc k m - knat (n - 2) * f1 * Rc k m - f1 * S * g k m + knat (n - 1) * f2 * (S * g k m)).
  - generalize (Rc k m) S. intros r s. transitivity (r + f1 * (r - s * g k m + r - (k1 + k1 + knat (n - 2)) * r) + f2 * (s * ((k1 + knat (n - 1)) * g k m - g k m))).
    + rewrite <- E1, <- E2. reflexivity.
    + ring.
  - rewrite E3, E4. ring.
Qed.

(** All traces: for every symmetric contraction over two different places. *)
Lemma weyl_traces a b : (3 <= n)%nat -> (a < n)%nat -> (b < n)%nat ->
  let tr F := nsum n (fun i => nsum n (fun j => gi i j * F i j)) in
  tr (fun i j => W i j a b) == k0 /\ tr (fun i j => W i a j b) == k0 /\ tr (fun i j => W i a b j) == k0 /\
  tr (fun i j => W a i j b) == k0 /\ tr (fun i j => W a i b j) == k0 /\ tr (fun i j => W a b i j) == k0.
Proof.
  intros Hn Ha Hb tr.
  assert (Ext : forall F F', (forall i j, (i < n)%nat -> (j < n)%nat -> F i j == F' i j) -> tr F == tr F').
  { intros F F' H. apply nsum_ext. intros i Hi. apply nsum_ext. intros j Hj. rewrite (H i j Hi Hj). reflexivity. }
  assert (Opp : forall F, tr (fun i j => - F i j) == - tr F).
  { intros F. unfold tr. rewrite <- nsum_opp. apply nsum_ext. intros i _. rewrite <- nsum_opp. apply nsum_ext. intros j _. ring. }
  assert (Tr : forall F, tr (fun i j => F j i) == tr F).
  { intros F. unfold tr. rewrite nsum_swap. apply nsum_ext. intros i Hi. apply nsum_ext. intros j Hj. rewrite (gi_sym j i Hj Hi). reflexivity. }
  assert (An : forall F, (forall i j, (i < n)%nat -> (j < n)%nat -> F i j == - F j i) -> tr F == k0).
  { intros F H. apply half_zero. rewrite <- Opp, <- (Tr (fun i j => - F i j)). apply Ext, H. }
  assert (T13 : forall a b, (a < n)%nat -> (b < n)%nat -> tr (fun i j => W i a j b) == k0) by (intros; apply weyl_trace13; assumption).
  split; [|split; [|split; [|split; [|split]]]].
  - apply An. intros. apply weyl_first_pair; assumption.
  - apply T13; assumption.
  - rewrite (Ext _ (fun i j => - W i a j b)) by (intros; apply weyl_last_pair). rewrite Opp, T13 by assumption. ring.
  - rewrite (Ext _ (fun i j => - W i a j b)) by (intros; apply weyl_first_pair; assumption). rewrite Opp, T13 by assumption. ring.
  - rewrite (Ext _ (fun i j => W i a j b)); [apply T13; assumption|]. intros i j Hi Hj. rewrite weyl_first_pair, (weyl_last_pair i a b j) by assumption. ring.
  - apply An. intros. apply weyl_last_pair.
Qed.
End CurvP.

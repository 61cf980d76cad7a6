(** Concrete cases for the properties of tensors, metrics and coordinate changes. *)
From Coq Require Import QArith Qcanon Permutation.
From Verif Require Import Alg Alg_P Arr Arr_P Spec UtilsM Arr2_P Utils_P Act_P TensorM RL_P Jac_P Tensor_P Jacobian_P Chr_P Subs_P Inst Ex.
Local Open Scope nat_scope.

Ltac two i Hi := destruct i as [|[|i]]; [| |exfalso; lia]; clear Hi.
Ltac polyeq := apply pisz_sub_eq; vmtrue.

Lemma ex_sq : square 2 ex_g /\ square 2 ex_gi /\ square 2 ex_J /\ square 2 ex_Ji /\ square 2 ex_J2 /\ square 2 ex_Ji2.
Proof. repeat split. Qed.

Lemma ex_g_inverse : inverse_fun 2 (mfun ex_g) (mfun ex_gi).
Proof. split; intros i j Hi Hj; two i Hi; two j Hj; polyeq. Qed.

Lemma ex_J_inverse : inverse_fun 2 (mfun ex_J) (mfun ex_Ji).
Proof. split; intros i j Hi Hj; two i Hi; two j Hj; polyeq. Qed.

Lemma ex_rl_hyps :
  1 <= 2 /\ square 2 ex_g /\ square 2 ex_gi /\ inverse_fun 2 (mfun ex_g) (mfun ex_gi) /\
  valid_cfg [1; -1; -1]%Z /\ valid_cfg [-1; -1; 1]%Z /\ cubic 2 ex_rank3 /\ rank ex_rank3 = 3 /\
  exists b, raise_lower ex_g ex_gi [1; -1; -1]%Z [-1; -1; 1]%Z ex_rank3 = Ok b.
Proof.
  split; [lia|]. split; [apply ex_sq|]. split; [apply ex_sq|]. split; [apply ex_g_inverse|].
  split; [repeat (apply Forall_cons; [auto|]); apply Forall_nil|].
  split; [repeat (apply Forall_cons; [auto|]); apply Forall_nil|].
  split; [split; reflexivity|]. split; [reflexivity|]. apply is_ok_ex; vmtrue.
Qed.

Lemma ex_tr_hyps :
  cubic 2 ex_rank3 /\ square 2 ex_J /\ square 2 ex_Ji /\ inverse_fun 2 (mfun ex_J) (mfun ex_Ji) /\
  valid_cfg [1; -1; 1]%Z /\ rank ex_rank3 = 3 /\
  exists b, transform ex_J ex_Ji ex_rules 3 [1; -1; 1]%Z ex_rank3 = Ok b.
Proof.
  split; [split; reflexivity|]. split; [apply ex_sq|]. split; [apply ex_sq|]. split; [apply ex_J_inverse|].
  split; [repeat (apply Forall_cons; [auto|]); apply Forall_nil|].
  split; [reflexivity|]. apply is_ok_ex; vmtrue.
Qed.

Lemma ex_undo_hyps :
  (forall i k, i < 2 -> k < 2 ->
     keq (nsum 2 (fun j => kmul (subs_seq ex_back (subs_seq ex_rules (aget ex_J [i; j]))) (subs_seq ex_back (aget ex_J2 [j; k])))) (kdelta i k)) /\
  (forall i k, i < 2 -> k < 2 ->
     keq (nsum 2 (fun j => kmul (subs_seq ex_back (aget ex_Ji2 [i; j])) (subs_seq ex_back (subs_seq ex_rules (aget ex_Ji [j; k]))))) (kdelta i k)) /\
  (forall idx, inb (shape ex_rank3) idx = true -> keq (subs_seq ex_back (subs_seq ex_rules (aget ex_rank3 idx))) (aget ex_rank3 idx)).
Proof.
  split; [intros i k Hi Hk; two i Hi; two k Hk; polyeq|].
  split; [intros i k Hi Hk; two i Hi; two k Hk; polyeq|].
  intros idx H. apply in_all_idx in H.
  change (In idx [[0;0;0];[0;0;1];[0;1;0];[0;1;1];[1;0;0];[1;0;1];[1;1;0];[1;1;1]]) in H.
  repeat (destruct H as [<-|H]; [polyeq|]). destruct H.
Qed.

Lemma ex_jacobian :
  exists J Ji C, calculate_jacobian ex_xs ex_ys ex_rules = Ok (J, Ji, C) /\
    NoDup (map fst ex_rules).
Proof.
  assert (H : exists t, calculate_jacobian ex_xs ex_ys ex_rules = Ok t) by (apply is_ok_ex; vmtrue).
  destruct H as [[[J Ji] C] H]. exists J, Ji, C. split; [exact H|].
  repeat constructor; cbn; intuition discriminate.
Qed.

Lemma ex_metric_hyps :
  square 2 ex_g /\ symmetric_fun 2 (mfun ex_g) /\
  (exists d, metric_representations [-1; -1]%Z ex_g = Ok d) /\
  exists t, transform ex_J ex_Ji ex_rules 2 [-1; -1]%Z ex_g = Ok t /\
    snd (metric_fill [-1; -1]%Z [-1; -1]%Z [([-1; -1]%Z, t)]) = Ok tt.
Proof.
  split; [apply ex_sq|]. split; [intros i j Hi Hj; two i Hi; two j Hj; polyeq|].
  split; [apply is_ok_ex; vmtrue|].
  assert (E : is_ok (do t <- transform ex_J ex_Ji ex_rules 2 [-1; -1]%Z ex_g; snd (metric_fill [-1; -1]%Z [-1; -1]%Z [([-1; -1]%Z, t)])) = true) by vmtrue.
  destruct (transform ex_J ex_Ji ex_rules 2 [-1; -1]%Z ex_g) as [t|e] eqn:Et; [|discriminate].
  exists t. split; [reflexivity|]. cbn [rbind] in E.
  destruct (snd (metric_fill [-1; -1]%Z [-1; -1]%Z [([-1; -1]%Z, t)])) as [[]|e]; [reflexivity|discriminate].
Qed.

Lemma missing_rule_witness :
  exists (J Ji C : @arr PolyOps),
  calculate_jacobian ex_self ex_other ex_shift = Ok (J, Ji, C) /\
  nth 1 ex_self ""%string = "z"%string /\ dget String.eqb "z"%string ex_shift = None /\
  nth 0 ex_other ""%string = "z"%string /\
  ~ keq (aget J [1; 0]) k1 /\ keq (aget J [1; 1]) k1.
Proof.
  assert (H : exists t, calculate_jacobian ex_self ex_other ex_shift = Ok t) by (apply is_ok_ex; vmtrue).
  destruct H as [[[J Ji] C] H]. exists J, Ji, C. split; [exact H|].
  assert (ND : NoDup (map fst ex_shift)) by (repeat constructor; cbn; intuition discriminate).
  destruct (calculate_jacobian_spec 2 ex_self ex_other ex_shift ltac:(lia) eq_refl eq_refl ND J Ji C H)
    as (_ & _ & _ & _ & _ & GJ & _).
  split; [reflexivity|]. split; [reflexivity|]. split; [reflexivity|]. split.
  - intros E. assert (G := GJ 1 0 ltac:(lia) ltac:(lia)). rewrite E in G.
    apply (peq_Qc _ _ (fun _ => 0%Qc)) in G. apply (f_equal this) in G. vm_compute in G. discriminate.
  - rewrite (GJ 1 1 ltac:(lia) ltac:(lia)). reflexivity.
Qed.

Lemma ex_swap_fresh : fresh_for ex_swap ["a"; "b"]%string (PV "x").
Proof.
  split; [reflexivity|]. split; [repeat constructor; cbn; intuition discriminate|].
  intros y [<-|[<-|[]]]; (split; [cbn; intuition discriminate|]; split; [intros q R v; reflexivity|];
    repeat constructor; intros q R v; reflexivity).
Qed.

Lemma swap_witness :
  exists (rules : list (string * @K PolyOps)) fresh (e : @K PolyOps),
  NoDup (map fst rules) /\ fresh_for rules fresh e /\ ~ keq (subs_seq rules e) (subs_sim rules fresh e).
Proof.
  exists ex_swap, ["a"; "b"]%string, (PV "x").
  split; [repeat constructor; cbn; intuition discriminate|]. split; [apply ex_swap_fresh|].
  intros E. apply (peq_Qc _ _ (fun s => if String.eqb s "x" then 1%Qc else 0%Qc)) in E.
  apply (f_equal this) in E. vm_compute in E. discriminate.
Qed.

Lemma ex_no_later :
  no_later (A := PolyOps) ex_rules /\ NoDup (map fst ex_rules) /\
  fresh_for (A := PolyOps) ex_rules ["a"; "b"]%string (PMul (PV "x") (PV "y")).
Proof.
  split; [split; [repeat constructor; intros q R v; reflexivity|repeat constructor]|].
  split; [repeat constructor; cbn; intuition discriminate|].
  split; [reflexivity|]. split; [repeat constructor; cbn; intuition discriminate|].
  intros y [<-|[<-|[]]]; (split; [cbn; intuition discriminate|]; split; [intros q R v; reflexivity|];
    repeat constructor; intros q R v; reflexivity).
Qed.

Definition ex_Gam : @arr PolyOps :=
  tab [2; 2; 2] (fun idx => match idx with
    | [i; j; k] => christoffel_of 2 (fun m => nth m ex_xs ""%string) (mfun ex_g) (mfun ex_gi) i j k
    | _ => k0 end).

Lemma ex_chr_hyps :
  Permutation (map fst ex_rules) ex_xs /\ NoDup (map fst ex_rules) /\
  (forall x, In x ex_xs -> ~ In x ex_ys) /\
  (forall r x, In r ex_rules -> In x ex_xs -> free_of (A := PolyOps) x (snd r)) /\
  square 2 ex_g /\ square 2 ex_gi /\ symmetric_fun 2 (mfun ex_g) /\ inverse_fun 2 (mfun ex_g) (mfun ex_gi) /\
  (forall s i j, In s ex_ys -> i < 2 -> j < 2 -> keq (kdiff s (aget ex_g [i; j])) k0) /\
  awf ex_Gam /\ shape ex_Gam = [2; 2; 2] /\
  (forall i j k, i < 2 -> j < 2 -> k < 2 ->
     keq (aget ex_Gam [i; j; k]) (christoffel_of 2 (fun m => nth m ex_xs ""%string) (mfun ex_g) (mfun ex_gi) i j k)) /\
  exists J Ji C g' gi', calculate_jacobian ex_xs ex_ys ex_rules = Ok (J, Ji, C) /\
    transform J Ji ex_rules 2 [-1; -1]%Z ex_g = Ok g' /\ square 2 gi' /\ inverse_fun 2 (mfun g') (mfun gi').
Proof.
  split; [apply perm_swap|]. split; [repeat constructor; cbn; intuition discriminate|].
  split; [intros x [<-|[<-|[]]]; cbn; intuition discriminate|].
  split. { intros r x [<-|[<-|[]]] [<-|[<-|[]]]; split; [intros R v|intros q R v|intros R v|intros q R v|intros R v|intros q R v|intros R v|intros q R v]; try reflexivity. all: revert R v; polyeq. }
  split; [apply ex_sq|]. split; [apply ex_sq|]. split; [apply ex_metric_hyps|]. split; [apply ex_g_inverse|].
  split. { intros s i j [<-|[<-|[]]] Hi Hj; two i Hi; two j Hj; polyeq. }
  split; [reflexivity|]. split; [reflexivity|].
  split. { intros i j k Hi Hj Hk. two i Hi; two j Hj; two k Hk; polyeq. }
  assert (E : is_ok (do t <- calculate_jacobian ex_xs ex_ys ex_rules;
     do g' <- transform (fst (fst t)) (snd (fst t)) ex_rules 2 [-1; -1]%Z ex_g; ainv g') = true) by vmtrue.
  destruct (calculate_jacobian ex_xs ex_ys ex_rules) as [[[J Ji] C]|] eqn:EJ; [|discriminate]. cbn [rbind fst snd] in E.
  assert (ND : NoDup (map fst ex_rules)) by (repeat constructor; cbn; intuition discriminate).
  destruct (calculate_jacobian_spec 2 ex_xs ex_ys ex_rules ltac:(lia) eq_refl eq_refl ND J Ji C EJ) as (SJ & SJi & _).
  destruct (transform J Ji ex_rules 2 [-1; -1]%Z ex_g) as [g'|] eqn:Eg; [|discriminate]. cbn [rbind] in E.
  destruct (ainv g') as [gi'|] eqn:Ei; [|discriminate].
  exists J, Ji, C, g', gi'. split; [reflexivity|]. split; [exact Eg|].
  assert (Sg : square 2 g').
  { apply (transform_symmetric 2 J Ji ex_rules ex_g g' [-1; -1]%Z); [apply ex_sq|exact SJ|exact SJi|apply ex_metric_hyps|left; reflexivity|exact Eg]. }
  apply (ainv_spec 2 g' gi' Sg Ei).
Qed.

Lemma ex_commute_hyps :
  square 2 ex_J /\ square 2 ex_Ji /\ inverse_fun 2 (mfun ex_J) (mfun ex_Ji) /\
  square 2 ex_g /\ square 2 ex_gi /\ inverse_fun 2 (mfun ex_g) (mfun ex_gi) /\
  exists g' gi', transform ex_J ex_Ji ex_rules 2 [-1; -1]%Z ex_g = Ok g' /\ square 2 gi' /\ inverse_fun 2 (mfun g') (mfun gi').
Proof.
  split; [apply ex_sq|]. split; [apply ex_sq|]. split; [apply ex_J_inverse|].
  split; [apply ex_sq|]. split; [apply ex_sq|]. split; [apply ex_g_inverse|].
  assert (E : is_ok (do g' <- transform ex_J ex_Ji ex_rules 2 [-1; -1]%Z ex_g; ainv g') = true) by vmtrue.
  destruct (transform ex_J ex_Ji ex_rules 2 [-1; -1]%Z ex_g) as [g'|] eqn:Eg; [|discriminate]. cbn [rbind] in E.
  destruct (ainv g') as [gi'|] eqn:Ei; [|discriminate].
  exists g', gi'. split; [reflexivity|].
  assert (Sg : square 2 g').
  { apply (transform_symmetric 2 ex_J ex_Ji ex_rules ex_g g' [-1; -1]%Z); [apply ex_sq|apply ex_sq|apply ex_sq|apply ex_metric_hyps|left; reflexivity|exact Eg]. }
  apply (ainv_spec 2 g' gi' Sg Ei).
Qed.

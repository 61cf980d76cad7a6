(** The messages of errors. *)
From Coq Require Import DecimalNat DecimalFacts.
From Verif Require Import Base LexM WorldM MessageM SpecMessage.
Import List.
Local Open Scope nat_scope.

Lemma decimal_inj n m : decimal n = decimal m -> n = m.
Proof.
  unfold decimal. intros H. apply DecimalNat.Unsigned.to_uint_inj.
  assert (NN : forall k, Nat.to_uint k <> Decimal.Nil).
  { intros k E. assert (U := DecimalNat.Unsigned.to_of (Nat.to_uint k)). rewrite DecimalNat.Unsigned.of_to, E in U. discriminate U. }
  assert (S : NilZero.string_of_uint (Nat.to_uint n) = NilZero.string_of_uint (Nat.to_uint m)).
  { rewrite <- (string_of_list_ascii_of_string (NilZero.string_of_uint (Nat.to_uint n))), H. apply string_of_list_ascii_of_string. }
  assert (E1 := NilZero.usu _ (NN n)). assert (E2 := NilZero.usu _ (NN m)). rewrite S, E2 in E1. congruence.
Qed.
Lemma commas_listed l : commas l = listed l.
Proof. induction l as [|x [|y l] IH]; [reflexivity|cbn; rewrite app_nil_r; reflexivity|]. cbn [commas listed] in *. rewrite IH. reflexivity. Qed.
Lemma int_integer l : map int_text l = map integer l.
Proof. reflexivity. Qed.
Lemma tuple_python l : tuple_text l = python_tuple l.
Proof.
  unfold tuple_text, python_tuple. destruct l as [|x [|y l]]; [reflexivity|cbn [listed]; rewrite app_nil_r; reflexivity|].
  rewrite commas_listed. reflexivity.
Qed.

Section Results.
Context {A : AlgOps}.
Theorem refused_exact l n src : validate_indices (VTuple l) n src = match refused_indices l n src with Some (e, _) => Err e | None => Ok tt end.
Proof.
  unfold validate_indices, refused_indices. destruct (forallb _ l); cbn [negb]; [|reflexivity]. destruct n as [n|].
  - destruct (n =? length l); cbn [negb]; [|reflexivity]. destruct src as [r|]; [|reflexivity]. destruct (r =? length l); reflexivity.
  - destruct src as [r|]; [|reflexivity]. destruct (r =? length l); reflexivity.
Qed.
Theorem refused_tensor_exact name comps symbol l n a :
  (exists s, symbol = VStr s \/ symbol = VSymbol s) -> as_array comps = Some a ->
  validate_base (VStr name) comps symbol (VTuple l) n =
  match refused_shape (shape a) n, refused_indices l (Some (rank a)) None with
  | Some (ETensorDimension, _), _ => Err ETensorDimension
  | _, Some (e, _) => Err e
  | Some (e, _), None => Err e
  | None, None => Ok tt
  end.
Proof.
  intros [s Hs] Ha. unfold validate_base, validate_object. rewrite Ha. unfold refused_shape.
  destruct Hs as [-> | ->]; destruct (forallb (fun d => d =? hd 0 (shape a)) (shape a)); cbn [negb rbind]; try reflexivity;
    rewrite refused_exact; destruct (refused_indices l (Some (rank a)) None) as [[e m]|]; cbn [rbind]; destruct (forallb (fun d => d =? n) (shape a)); reflexivity.
Qed.
End Results.

Lemma valid_test l : Forall (fun z => z = 1%Z \/ z = (-1)%Z) l -> forallb (fun z => (z =? -1) || (z =? 1))%Z l = true.
Proof. intros H. apply forallb_forall. intros z Hz. rewrite Forall_forall in H. destruct (H z Hz) as [->| ->]; reflexivity. Qed.

Theorem constructor_message l r src : Forall (fun z => z = 1%Z \/ z = (-1)%Z) l -> r <> length l ->
  exists m, refused_indices l (Some r) src = Some (EIndicesDimension, m) /\ says_both m (decimal (length l)) (decimal r) /\ says m (python_tuple (map integer l)) /\
    forall r' src', r' <> length l -> refused_indices l (Some r') src' = Some (EIndicesDimension, m) -> r' = r.
Proof.
  intros Hl Hr. unfold refused_indices. rewrite (valid_test l Hl). cbn [negb]. rewrite (proj2 (Nat.eqb_neq _ _) Hr). cbn [negb]. eexists. split; [reflexivity|].
  unfold dimension_message. cbn [String.eqb Ascii.eqb Bool.eqb]. rewrite ?int_integer, tuple_python. split; [|split].
  - exists (chars "The supplied indices (" ++ python_tuple (map integer l) ++ chars ") are invalid." ++ newline ++ chars "The number of indices ("),
      (chars ") must match the rank of the Tensor ("), (chars ").").
    rewrite <- !app_assoc. reflexivity.
  - eexists _, _. reflexivity.
  - intros r' src' Hr' E. rewrite (proj2 (Nat.eqb_neq _ _) Hr') in E. cbn [negb] in E. apply (f_equal (fun o => match o with Some (_, m) => m | None => [] end)) in E. cbv beta iota in E. unfold dimension_message in E. cbn [String.eqb Ascii.eqb Bool.eqb] in E.
    repeat match type of E with ?a ++ ?b = ?a ++ ?c => apply app_inv_head in E end.
    apply app_inv_tail in E. apply decimal_inj, E.
Qed.
Theorem request_message l r : Forall (fun z => z = 1%Z \/ z = (-1)%Z) l -> r <> length l ->
  refused_indices l None (Some r) = Some (EIndicesDimension, chars "The supplied indices (" ++ python_tuple (map integer l) ++ chars ") are invalid.").
Proof.
  intros Hl Hr. unfold refused_indices. rewrite (valid_test l Hl). cbn [negb]. rewrite (proj2 (Nat.eqb_neq _ _) Hr). unfold dimension_message. cbn [String.eqb Ascii.eqb Bool.eqb].
  rewrite ?int_integer, tuple_python, app_nil_r. reflexivity.
Qed.
Theorem value_refused l n src : ~ Forall (fun z => z = 1%Z \/ z = (-1)%Z) l ->
  exists m, refused_indices l n src = Some (EIndicesValue, m) /\ says m (python_tuple (map integer l)).
Proof.
  intros H. unfold refused_indices. assert (E : forallb (fun z => (z =? -1) || (z =? 1))%Z l = false).
  { destruct (forallb _ l) eqn:E; [|reflexivity]. exfalso. apply H. rewrite forallb_forall in E. apply Forall_forall. intros z Hz. specialize (E z Hz).
    apply orb_prop in E as [E|E]; apply Z.eqb_eq in E; auto. }
  rewrite E. cbn [negb]. eexists. split; [reflexivity|]. unfold value_message. rewrite ?int_integer, tuple_python. eexists _, _. reflexivity.
Qed.
Theorem request_not_told : exists l r r' m, r <> r' /\ refused_indices l None (Some r) = Some (EIndicesDimension, m) /\ refused_indices l None (Some r') = Some (EIndicesDimension, m).
Proof.
  exists [1]%Z, 2, 3. eexists. split; [discriminate|]. split; [apply request_message; [repeat constructor|discriminate]|].
  apply request_message; [repeat constructor|discriminate].
Qed.
Theorem shape_refused sh n :
  (forall d, In d sh -> d = n) /\ refused_shape sh n = None \/
  (exists m, (exists d d', In d sh /\ In d' sh /\ d <> d') /\ refused_shape sh n = Some (ETensorDimension, m) /\ says m (python_tuple (map decimal sh))) \/
  (exists m d, sh <> [] /\ (forall d', In d' sh -> d' = d) /\ d <> n /\ refused_shape sh n = Some (ETensorCoordinates, m) /\ says_both m (python_tuple (map decimal sh)) (python_tuple [decimal n])).
Proof.
  unfold refused_shape. destruct (forallb (fun d => d =? hd 0 sh) sh) eqn:E; cbn [negb].
  - rewrite forallb_forall in E. destruct (forallb (fun d => d =? n) sh) eqn:E2.
    + left. split; [|reflexivity]. intros d Hd. rewrite forallb_forall in E2. apply Nat.eqb_eq, E2, Hd.
    + right; right. eexists _, (hd 0 sh). destruct sh as [|d0 sh]; [discriminate E2|]. split; [discriminate|]. split; [intros d' Hd'; apply Nat.eqb_eq, E, Hd'|].
      split. { intros Hn. cbn [hd] in *. assert (X : forallb (fun d => d =? n) (d0 :: sh) = true) by (apply forallb_forall; intros d Hd; rewrite <- Hn; apply E, Hd). congruence. }
      split; [reflexivity|]. unfold coordinates_message. rewrite !tuple_python. eexists _, _, _. reflexivity.
  - right; left. eexists. split; [|split; [reflexivity|]].
    + destruct sh as [|d0 sh]; [discriminate E|]. cbn [hd] in E. assert (X : exists d, In d (d0 :: sh) /\ d <> d0).
      { remember (d0 :: sh) as l. clear -E. induction l as [|a l IH]; [discriminate E|]. cbn [forallb] in E. destruct (Nat.eqb_spec a d0) as [->|N]; [|exists a; split; [left; reflexivity|exact N]].
        cbn [andb] in E. destruct (IH E) as (d & H1 & H2). exists d. split; [right; exact H1|exact H2]. }
      destruct X as (d & H1 & H2). exists d, d0. split; [exact H1|]. split; [left; reflexivity|exact H2].
    + unfold shape_message. rewrite ?int_integer, tuple_python. eexists _, _. reflexivity.
Qed.

(** Proofs about sessions: constructors, validation, references. *)
From Verif Require Import Alg Arr Arr_P Spec UtilsM TensorM WorldM SpecWorld.

Ltac intro_ := let u := fresh "u" in intro u.

(** *** Dictionaries *)

Section Dict.
Context {V : Type}.

Lemma dget_In (k : oid) (d : list (oid * V)) v : dget Nat.eqb k d = Some v -> In (k, v) d.
Proof.
  induction d as [|[k' v'] d IH]; cbn; [discriminate|].
  destruct (Nat.eqb_spec k k') as [->|N]; intros H.
  - injection H as ->. left; reflexivity.
  - right. apply IH, H.
Qed.

Lemma dget_key (k : oid) (d : list (oid * V)) v : dget Nat.eqb k d = Some v -> In k (map fst d).
Proof. intros H. apply dget_In in H. apply (in_map fst) in H. exact H. Qed.

Lemma dmem_key (k : oid) (d : list (oid * V)) : dmem Nat.eqb k d = true <-> In k (map fst d).
Proof.
  unfold dmem. induction d as [|[k' v'] d IH]; cbn; [split; [discriminate|tauto]|].
  destruct (Nat.eqb_spec k k') as [->|N]; [split; auto|]. rewrite IH. split; auto.
  intros [E|E]; [congruence|exact E].
Qed.

Lemma dset_keys (k : oid) v (d : list (oid * V)) j :
  In j (map fst (dset Nat.eqb k v d)) <-> j = k \/ In j (map fst d).
Proof.
  induction d as [|[k' v'] d IH]; cbn.
  - split; [intros [E|[]]; auto | intros [E|[]]; auto].
  - destruct (Nat.eqb_spec k k') as [->|N]; cbn.
    + split; [intros [E|E]; auto | intros [E|[E|E]]; auto].
    + rewrite IH. split; [intros [E|[E|E]]; auto | intros [E|[E|E]]; auto].
Qed.

Lemma ddel_keys (k : oid) (d : list (oid * V)) j :
  In j (map fst (ddel Nat.eqb k d)) -> In j (map fst d).
Proof.
  induction d as [|[k' v'] d IH]; cbn; [tauto|].
  destruct (Nat.eqb_spec k k') as [->|N]; cbn; [auto|]. intros [E|E]; auto.
Qed.

Lemma dget_dset_same (k : oid) v (d : list (oid * V)) : dget Nat.eqb k (dset Nat.eqb k v d) = Some v.
Proof.
  induction d as [|[k' v'] d IH]; cbn; [rewrite Nat.eqb_refl; reflexivity|].
  destruct (Nat.eqb_spec k k') as [->|N]; cbn; [rewrite Nat.eqb_refl; reflexivity|].
  destruct (Nat.eqb_spec k k'); [congruence|exact IH].
Qed.

Lemma dget_dset_other (k j : oid) v (d : list (oid * V)) :
  j <> k -> dget Nat.eqb j (dset Nat.eqb k v d) = dget Nat.eqb j d.
Proof.
  intros N. induction d as [|[k' v'] d IH]; cbn.
  - destruct (Nat.eqb_spec j k); [congruence|reflexivity].
  - destruct (Nat.eqb_spec k k') as [->|N']; cbn.
    + destruct (Nat.eqb_spec j k'); [congruence|reflexivity].
    + destruct (Nat.eqb_spec j k'); [reflexivity|exact IH].
Qed.
End Dict.

Lemma cfg_eqb_spec a b : cfg_eqb a b = true <-> a = b.
Proof.
  revert b; induction a as [|x a IH]; intros [|y b]; cbn; try (split; [discriminate|discriminate]); [tauto|].
  rewrite andb_true_iff, Z.eqb_eq, IH. split; [intros [-> ->]; reflexivity|intros E; injection E; auto].
Qed.

Lemma cfg_eqb_refl a : cfg_eqb a a = true.
Proof. apply cfg_eqb_spec. reflexivity. Qed.

Section CDict.
Context {V : Type}.
Implicit Types (d : list (list Z * V)).

Lemma cget_set_same k v d : dget cfg_eqb k (dset cfg_eqb k v d) = Some v.
Proof.
  induction d as [|[k' v'] d IH]; cbn; [rewrite cfg_eqb_refl; reflexivity|].
  destruct (cfg_eqb k k') eqn:E; cbn; rewrite ?E; [reflexivity|exact IH].
Qed.

Lemma cget_set_other k j v d : j <> k -> dget cfg_eqb j (dset cfg_eqb k v d) = dget cfg_eqb j d.
Proof.
  intros N. induction d as [|[k' v'] d IH]; cbn.
  - destruct (cfg_eqb j k) eqn:E; [apply cfg_eqb_spec in E; congruence|reflexivity].
  - destruct (cfg_eqb k k') eqn:E; cbn.
    + apply cfg_eqb_spec in E as <-. destruct (cfg_eqb j k) eqn:E; [apply cfg_eqb_spec in E; congruence|reflexivity].
    + destruct (cfg_eqb j k'); [reflexivity|exact IH].
Qed.

Lemma cset_In k v d e : In e (dset cfg_eqb k v d) -> e = (k, v) \/ In e d.
Proof.
  induction d as [|[k' v'] d IH]; cbn; [intros [E|[]]; auto|].
  destruct (cfg_eqb k k') eqn:E; cbn.
  - apply cfg_eqb_spec in E as <-. intros [E|E]; auto.
  - intros [E'|E']; auto. apply IH in E'. tauto.
Qed.

Lemma cget_In k d v : dget cfg_eqb k d = Some v -> In (k, v) d.
Proof.
  induction d as [|[k' v'] d IH]; cbn; [discriminate|].
  destruct (cfg_eqb k k') eqn:E; intros H.
  - apply cfg_eqb_spec in E as <-. injection H as ->. left; reflexivity.
  - right. apply IH, H.
Qed.
End CDict.

Lemma set_nth_length {X} i (x : X) l : length (set_nth i x l) = length l.
Proof. revert i; induction l as [|y l IH]; intros [|i]; cbn; auto. Qed.

Lemma nth_set_nth {X} i j (x : X) l :
  nth_error (set_nth i x l) j = if (i =? j) && (i <? length l) then Some x else nth_error l j.
Proof.
  revert i j; induction l as [|y l IH]; intros [|i] [|j]; cbn; auto.
  - rewrite andb_false_r. reflexivity.
  - rewrite IH. reflexivity.
Qed.

Lemma NoDup_snoc {X} (l : list X) x : NoDup l -> ~ In x l -> NoDup (l ++ [x]).
Proof.
  intros H Hx. induction H as [|y l Hy Hn IH]; cbn; [repeat constructor; tauto|].
  constructor.
  - rewrite in_app_iff. intros [C|[C|[]]]; [tauto|]. subst. apply Hx. left; reflexivity.
  - apply IH. intros C. apply Hx. right; exact C.
Qed.

(** *** The heap *)
Section World.
Context {A : AlgOps}.
Implicit Types (w : world) (o : obj).

Lemma obj_of_cls w i o : obj_of w i = Some o -> exists c, nth_error (heap w) i = Some (c, Some o).
Proof.
  unfold obj_of. destruct (nth_error (heap w) i) as [[c x]|]; [|discriminate].
  intros ->. exists c; reflexivity.
Qed.

Lemma obj_of_lt w i o : obj_of w i = Some o -> i < length (heap w).
Proof.
  intros H. apply obj_of_cls in H as [c H]. apply nth_error_Some. congruence.
Qed.

(** What [put] does to an existing object. *)
Lemma put_spec w i o o' : obj_of w i = Some o ->
  exists w', put i o' w = (Ok tt, w') /\ insts w' = insts w /\ length (heap w') = length (heap w) /\
    (forall j, cls_of w' j = cls_of w j) /\
    (forall j, obj_of w' j = if i =? j then Some o' else obj_of w j).
Proof.
  intros H. destruct (obj_of_cls _ _ _ H) as [c Hc]. unfold put. rewrite Hc.
  eexists; split; [reflexivity|]. cbn [insts heap]. split; [reflexivity|].
  rewrite set_nth_length. split; [reflexivity|].
  assert (Hlt : (i <? length (heap w)) = true) by (apply Nat.ltb_lt; eapply obj_of_lt, H).
  split; intros j.
  - unfold cls_of. cbn [heap]. rewrite nth_set_nth, Hlt, andb_true_r.
    destruct (Nat.eqb_spec i j) as [<-|N]; [rewrite Hc; reflexivity|reflexivity].
  - unfold obj_of. cbn [heap]. rewrite nth_set_nth, Hlt, andb_true_r.
    destruct (Nat.eqb_spec i j) as [<-|N]; reflexivity.
Qed.

(** Triples: precondition, statement, postcondition, condition after an error. *)
Definition hoare {X} (P : world -> Prop) (m : M X) (Q : X -> world -> Prop) (E : world -> Prop) : Prop :=
  forall w, P w -> match m w with (Ok x, w') => Q x w' | (Err _, w') => E w' end.

Lemma h_bind {X Y} P (m : M X) (f : X -> M Y) Q Q' E :
  hoare P m Q' E -> (forall x, hoare (Q' x) (f x) Q E) -> hoare P (mbind m f) Q E.
Proof.
  intros H1 H2 w Hw. specialize (H1 w Hw). unfold mbind.
  destruct (m w) as [[x|e] w']; [|exact H1]. exact (H2 x w' H1).
Qed.

Lemma h_conseq {X} (P P' : world -> Prop) (m : M X) (Q Q' : X -> world -> Prop) E :
  (forall w, P w -> P' w) -> (forall x w, Q' x w -> Q x w) -> hoare P' m Q' E -> hoare P m Q E.
Proof.
  intros H1 H2 H w Hw. specialize (H w (H1 w Hw)). destruct (m w) as [[x|e] w']; auto.
Qed.

Lemma h_ret {X} (P : world -> Prop) (x : X) (Q : X -> world -> Prop) E :
  (forall w, P w -> Q x w) -> hoare P (mret x) Q E.
Proof. intros H w Hw. apply H, Hw. Qed.

Lemma h_raise {X} (P : world -> Prop) e (Q : X -> world -> Prop) (E : world -> Prop) :
  (forall w, P w -> E w) -> hoare P (mraise e) Q E.
Proof. intros H w Hw. apply H, Hw. Qed.

Lemma h_lift {X} (P : world -> Prop) (r : res X) (Q : X -> world -> Prop) (E : world -> Prop) :
  (forall w x, r = Ok x -> P w -> Q x w) -> (forall w, P w -> E w) -> hoare P (mlift r) Q E.
Proof. intros H1 H2 w Hw. unfold mlift. destruct r as [x|e]; [apply H1; auto|apply H2, Hw]. Qed.

Lemma h_opt {X} (P : world -> Prop) e (x : option X) (Q : X -> world -> Prop) (E : world -> Prop) :
  (forall w y, x = Some y -> P w -> Q y w) -> (forall w, P w -> E w) -> hoare P (mopt e x) Q E.
Proof. intros H1 H2. destruct x as [y|]; cbn; [apply h_ret; auto|apply h_raise, H2]. Qed.

Lemma h_get (P : world -> Prop) i (Q : obj -> world -> Prop) (E : world -> Prop) :
  (forall w o, obj_of w i = Some o -> P w -> Q o w) -> (forall w, P w -> E w) -> hoare P (getobj i) Q E.
Proof.
  intros H1 H2 w Hw. unfold getobj. destruct (obj_of w i) eqn:Ho; [apply H1; auto|apply H2, Hw].
Qed.

Lemma h_isinstance (P : world -> Prop) i c (Q : bool -> world -> Prop) (E : world -> Prop) :
  (forall w b, (b = true -> cls_of w i = Some c) -> P w -> Q b w) -> hoare P (isinstance i c) Q E.
Proof.
  intros H1 w Hw. unfold isinstance. apply H1; [|exact Hw].
  destruct (cls_of w i) as [c'|]; [|discriminate]. intros Hc.
  destruct c, c'; try discriminate Hc; reflexivity.
Qed.

Lemma h_put (P : world -> Prop) i o' (Q : world -> Prop) (E : world -> Prop) :
  (forall w w' o, P w -> obj_of w i = Some o -> insts w' = insts w ->
     length (heap w') = length (heap w) -> (forall j, cls_of w' j = cls_of w j) ->
     (forall j, obj_of w' j = if i =? j then Some o' else obj_of w j) -> Q w') ->
  (forall w, P w -> exists o, obj_of w i = Some o) ->
  hoare P (put i o') (fun _ => Q) E.
Proof.
  intros H1 H2 w Hw. destruct (H2 w Hw) as [o Ho].
  destruct (put_spec w i o o' Ho) as (w' & E1 & Hi & Hl & Hc & Hj). rewrite E1.
  exact (H1 w w' o Hw Ho Hi Hl Hc Hj).
Qed.

(** *** Referential integrity *)

(** Replacing an object by one with registered references only. *)
Lemma integrity_put w w' i o o' :
  integrity w -> obj_of w i = Some o -> insts w' = insts w ->
  (forall j, obj_of w' j = if i =? j then Some o' else obj_of w j) ->
  (In i (insts w) -> forall j, refers o' j -> refers o j \/ In j (insts w)) ->
  integrity w'.
Proof.
  intros [[Hn Ha] Hr] Ho Hi Hj Href. split; [split|].
  - rewrite Hi. exact Hn.
  - intros k. rewrite Hi, Hj. intros Hk. destruct (i =? k); [discriminate|]. apply Ha, Hk.
  - intros k ok j. rewrite Hi, Hj. intros Hk. destruct (Nat.eqb_spec i k) as [<-|N].
    + intros E; injection E as <-. intros Rj. destruct (Href Hk j Rj) as [R|R]; [|exact R].
      exact (Hr i o j Hk Ho R).
    + intros Hok. exact (Hr k ok j Hk Hok).
Qed.

(** The invariant of the cache operations: integrity, and the registry is [L]. *)
Definition II (L : list oid) (w : world) : Prop := integrity w /\ insts w = L.

(** Jacobians are not references in the sense of [refers]. *)
Lemma refers_jacs o js j : refers (set_jacs js o) j <-> refers o j.
Proof. reflexivity. Qed.
Lemma refers_indices o i j : refers (set_indices i o) j <-> refers o j.
Proof. reflexivity. Qed.
Lemma refers_name o i j : refers (set_name i o) j <-> refers o j.
Proof. reflexivity. Qed.

(** [put i o'] keeps the invariant if the current object is [o] and [o'] refers to nothing
    new but registered objects. *)
Lemma h_put_II L (P : world -> Prop) i o' :
  (forall w, P w -> II L w /\ exists o, obj_of w i = Some o /\
     (In i L -> forall j, refers o' j -> refers o j \/ In j L)) ->
  hoare P (put i o') (fun _ => II L) (II L).
Proof.
  intros H w Hw. destruct (H w Hw) as ((I & HL) & o & Ho & Hr).
  destruct (put_spec w i o o' Ho) as (w' & E1 & Hi & Hl & Hc & Hj). rewrite E1.
  split; [|congruence]. apply (integrity_put w w' i o o'); auto. rewrite HL. exact Hr.
Qed.

Lemma II_ref L w i o j : II L w -> In i L -> obj_of w i = Some o -> refers o j -> In j L.
Proof. intros [[_ H] HL] Hi Ho Hr. rewrite <- HL in *. exact (H i o j Hi Ho Hr). Qed.

Lemma calc_jac_II L self coords : hoare (II L) (w_calculate_jacobian self coords) (fun _ => II L) (II L).
Proof.
  unfold w_calculate_jacobian.
  eapply h_bind; [apply (h_get _ _ (fun so w => II L w /\ obj_of w self = Some so)); auto|intros so].
  eapply h_bind; [apply (h_get _ _ (fun _ w => II L w /\ obj_of w self = Some so)); [auto|tauto]|intros co].
  eapply h_bind; [apply (h_opt _ _ _ (fun _ w => II L w /\ obj_of w self = Some so)); [auto|tauto]|intros rules].
  eapply h_bind; [apply (h_lift _ _ (fun _ w => II L w /\ obj_of w self = Some so)); [auto|tauto]|intros j].
  apply h_put_II. intros w [I Ho]. split; [exact I|]. exists so. split; [exact Ho|]. intros _ k Hk. left. exact Hk.
Qed.

Lemma check_jac_II L self coords : hoare (II L) (w_check_jacobians self coords) (fun _ => II L) (II L).
Proof.
  unfold w_check_jacobians.
  eapply h_bind; [apply (h_get _ _ (fun so => II L)); auto|intros so].
  destruct (dmem _ _ _); [apply h_ret; auto|].
  destruct (dmem _ _ _); [apply calc_jac_II|].
  eapply h_bind; [apply (h_get _ _ (fun _ => II L)); auto|intros co]. apply h_raise; auto.
Qed.

Lemma lookup_II L t c i (R : Prop) :
  hoare (fun w => II L w /\ R) (lookup t c i) (fun _ w => II L w /\ R) (II L).
Proof.
  unfold lookup.
  eapply h_bind; [apply (h_get _ _ (fun _ w => II L w /\ R)); tauto|intros o].
  eapply h_bind; [apply (h_opt _ _ _ (fun _ w => II L w /\ R)); tauto|intros d].
  apply h_opt; tauto.
Qed.

(** Storing components for registered coordinates. *)
Lemma store_II L t c i a (R : Prop) :
  (R -> In t L -> In c L) ->
  hoare (fun w => II L w /\ R) (store t c i a) (fun _ => II L) (II L).
Proof.
  intros HR. unfold store.
  eapply h_bind; [apply (h_get _ _ (fun o w => II L w /\ R /\ obj_of w t = Some o)); tauto|intros o].
  apply h_put_II. intros w (I & HR' & Ho). split; [exact I|]. exists o. split; [exact Ho|].
  intros Ht j [Hj|Hj]; [|left; right; exact Hj]. cbn [set_comps o_comps] in Hj.
  apply dset_keys in Hj as [->|Hj]; [right; auto|left; left; exact Hj].
Qed.

Lemma need_array_II (P E : world -> Prop) o c : (forall w, P w -> E w) -> hoare P (need_array o c) (fun _ => P) E.
Proof. intros H. unfold need_array. destruct (is_expr o c); [apply h_raise; auto|apply h_ret; auto]. Qed.

Lemma base_transform_II L t c i : hoare (II L) (base_transform t c i) (fun _ => II L) (II L).
Proof.
  unfold base_transform.
  eapply h_bind; [apply (h_get _ _ (fun o w => II L w /\ forall k, o_coords o = Some k -> In t L -> In k L))|intros o].
  { intros w o Ho I. split; [exact I|]. intros k Hk Ht. apply (II_ref L w t o); auto. right; right; left; exact Hk. }
  { auto. }
  eapply h_bind; [apply (h_opt _ _ _ (fun k w => II L w /\ (In t L -> In k L)))|intros k].
  { intros w y Hy [I H]. split; [exact I|]. apply H, Hy. } { tauto. }
  eapply h_bind with (Q' := fun _ w => II L w /\ (In t L -> In k L)).
  { intros w [I H]. pose proof (check_jac_II L k c w I) as G.
    destruct (w_check_jacobians k c w) as [[[]|e] w']; auto. }
  intro_. eapply h_bind; [apply lookup_II|intros a].
  eapply h_bind; [apply (h_get _ _ (fun co w => II L w /\ (In t L -> forall j, refers co j -> In j L)))|intros co].
  { intros w co Ho [I H]. split; [exact I|]. intros Ht j Hj. apply (II_ref L w k co); auto. } { tauto. }
  eapply h_bind; [apply (h_opt _ _ _ (fun _ w => II L w /\ (In t L -> forall j, refers co j -> In j L))); tauto|intros [[J Jinv] C]].
  eapply h_bind; [apply (h_opt _ _ _ (fun _ w => II L w /\ (In t L -> In c L)))|intros rules].
  { intros w y Hy [I H]. split; [exact I|]. intros Ht. apply (H Ht). right; right; right. eapply dget_key, Hy. } { tauto. }
  eapply h_bind; [apply (need_array_II _ _ o k); tauto|intro_].
  eapply h_bind; [apply (h_lift _ _ (fun _ w => II L w /\ (In t L -> In c L))); tauto|intros x].
  apply store_II. auto.
Qed.

Lemma chr_transform_II L t c i : hoare (II L) (w_christoffel_transform t c i) (fun _ => II L) (II L).
Proof.
  unfold w_christoffel_transform.
  eapply h_bind; [apply (h_get _ _ (fun o w => II L w /\ forall k, o_coords o = Some k -> In t L -> In k L))|intros o].
  { intros w o Ho I. split; [exact I|]. intros k Hk Ht. apply (II_ref L w t o); auto. right; right; left; exact Hk. }
  { auto. }
  eapply h_bind; [apply (h_opt _ _ _ (fun k w => II L w /\ (In t L -> In k L)))|intros k].
  { intros w y Hy [I H]. split; [exact I|]. apply H, Hy. } { tauto. }
  eapply h_bind with (Q' := fun _ w => II L w /\ (In t L -> In k L)).
  { intros w [I H]. pose proof (check_jac_II L k c w I) as G.
    destruct (w_check_jacobians k c w) as [[[]|e] w']; auto. }
  intro_. eapply h_bind; [apply lookup_II|intros a].
  eapply h_bind; [apply (h_get _ _ (fun co w => II L w /\ (In t L -> forall j, refers co j -> In j L)))|intros co].
  { intros w co Ho [I H]. split; [exact I|]. intros Ht j Hj. apply (II_ref L w k co); auto. } { tauto. }
  eapply h_bind; [apply (h_opt _ _ _ (fun _ w => II L w /\ (In t L -> forall j, refers co j -> In j L))); tauto|intros [[J Jinv] C]].
  eapply h_bind; [apply (h_opt _ _ _ (fun _ w => II L w /\ (In t L -> In c L)))|intros rules].
  { intros w y Hy [I H]. split; [exact I|]. intros Ht. apply (H Ht). right; right; right. eapply dget_key, Hy. } { tauto. }
  eapply h_bind; [apply (need_array_II _ _ o k); tauto|intro_].
  eapply h_bind; [apply (h_lift _ _ (fun _ w => II L w /\ (In t L -> In c L))); tauto|intros x].
  apply store_II. auto.
Qed.

Lemma curve_transform_II L f t c i : hoare (II L) (w_curve_transform f t c i) (fun _ => II L) (II L).
Proof.
  unfold w_curve_transform.
  eapply h_bind; [apply (h_get _ _ (fun o w => II L w /\ forall k, o_coords o = Some k -> In t L -> In k L))|intros o].
  { intros w o Ho I. split; [exact I|]. intros k Hk Ht. apply (II_ref L w t o); auto. right; right; left; exact Hk. }
  { auto. }
  eapply h_bind; [apply (h_opt _ _ _ (fun k w => II L w /\ (In t L -> In k L)))|intros k].
  { intros w y Hy [I H]. split; [exact I|]. apply H, Hy. } { tauto. }
  eapply h_bind with (Q' := fun _ w => II L w /\ (In t L -> In k L)).
  { intros w [I H]. pose proof (check_jac_II L k c w I) as G.
    destruct (w_check_jacobians k c w) as [[[]|e] w']; auto. }
  intro_. eapply h_bind; [apply lookup_II|intros a].
  eapply h_bind; [apply (h_get _ _ (fun co w => II L w /\ (In t L -> forall j, refers co j -> In j L)))|intros co].
  { intros w co Ho [I H]. split; [exact I|]. intros Ht j Hj. apply (II_ref L w k co); auto. } { tauto. }
  eapply h_bind; [apply (h_opt _ _ _ (fun _ w => II L w /\ (In t L -> forall j, refers co j -> In j L))); tauto|intros [[J Jinv] C]].
  eapply h_bind; [apply (h_opt _ _ _ (fun _ w => II L w /\ (In t L -> In c L)))|intros rules].
  { intros w y Hy [I H]. split; [exact I|]. intros Ht. apply (H Ht). right; right; right. eapply dget_key, Hy. } { tauto. }
  eapply h_bind; [apply (need_array_II _ _ o k); tauto|intro_].
  eapply h_bind; [apply (h_get _ _ (fun _ w => II L w /\ (In t L -> In c L))); [intros w o' _ H; exact H|tauto]|intros no].
  eapply h_bind; [apply (h_lift _ _ (fun _ w => II L w /\ (In t L -> In c L))); tauto|intros x].
  apply store_II. auto.
Qed.

Lemma metric_transform_II L t c i : hoare (II L) (metric_transform t c i) (fun _ => II L) (II L).
Proof.
  unfold metric_transform. eapply h_bind; [apply base_transform_II|intro_].
  eapply h_bind; [apply (h_get _ _ (fun o w => II L w /\ obj_of w t = Some o)); auto|intros o].
  eapply h_bind; [apply (h_opt _ _ _ (fun d w => (II L w /\ obj_of w t = Some o) /\ dget Nat.eqb c (o_comps o) = Some d)); tauto|intros d].
  destruct (metric_fill _ _ _) as [d' r].
  eapply h_bind; [apply (h_put_II L)|intro_; apply h_lift; auto].
  intros w ([I Ho] & Hd). split; [exact I|]. exists o. split; [exact Ho|].
  intros Ht j [Hj|Hj]; [|left; right; exact Hj]. cbn [set_comps o_comps] in Hj.
  apply dset_keys in Hj as [->|Hj]; left; left; [eapply dget_key, Hd|exact Hj].
Qed.

Lemma metric_check_II L t c : hoare (II L) (metric_check t c) (fun _ => II L) (II L).
Proof.
  unfold metric_check. eapply h_bind; [apply (h_get _ _ (fun _ => II L)); auto|intros o]. apply h_ret; auto.
Qed.

Lemma raise_lower_II L t c i : hoare (II L) (w_raise_lower t c i) (fun _ => II L) (II L).
Proof.
  unfold w_raise_lower.
  eapply h_bind; [apply (h_get _ _ (fun _ => II L)); auto|intros o].
  eapply h_bind; [apply (h_opt _ _ _ (fun _ => II L)); auto|intros m].
  eapply h_bind; [apply metric_check_II|intros b].
  eapply h_bind with (Q' := fun _ => II L).
  { destruct b; [apply h_ret; auto|apply metric_transform_II]. }
  intro_.
  eapply h_bind; [apply (h_get _ _ (fun o w => II L w /\ forall d, dget Nat.eqb c (o_comps o) = Some d -> In t L -> In c L))|intros o'].
  { intros w o' Ho I. split; [exact I|]. intros d Hd Ht. apply (II_ref L w t o'); auto. left. eapply dget_key, Hd. } { auto. }
  eapply h_bind; [apply (h_opt _ _ _ (fun _ w => II L w /\ (In t L -> In c L)))|intros d].
  { intros w y Hy [I H]. split; [exact I|]. exact (H y Hy). } { tauto. }
  eapply h_bind; [apply (h_opt _ _ _ (fun _ w => II L w /\ (In t L -> In c L))); tauto|intros [src a]].
  eapply h_bind; [apply lookup_II|intros g].
  eapply h_bind; [apply lookup_II|intros gi].
  eapply h_bind; [apply (h_lift _ _ (fun _ w => II L w /\ (In t L -> In c L))); tauto|intros x].
  apply store_II. auto.
Qed.

Lemma tensor_check_II L t c i : hoare (II L) (tensor_check t c i) (fun _ => II L) (II L).
Proof.
  unfold tensor_check. eapply h_bind; [apply (h_get _ _ (fun _ => II L)); auto|intros o].
  destruct (dget _ _ _) as [d|]; [|apply h_ret; auto].
  destruct (dmem _ _ _); [apply h_ret; auto|].
  eapply h_bind; [apply raise_lower_II|intro_; apply h_ret; auto].
Qed.

Lemma tensor_transform_II L t c i : hoare (II L) (tensor_transform t c i) (fun _ => II L) (II L).
Proof.
  unfold tensor_transform.
  eapply h_bind; [apply (h_get _ _ (fun _ => II L)); auto|intros o].
  eapply h_bind; [apply (h_opt _ _ _ (fun _ => II L)); auto|intros k].
  eapply h_bind; [apply tensor_check_II|intros b].
  eapply h_bind with (Q' := fun _ => II L).
  { destruct b; [apply h_ret; auto|apply raise_lower_II]. }
  intro_. apply base_transform_II.
Qed.

Lemma check_rep_II L t c i : hoare (II L) (check_representation t c i) (fun _ => II L) (II L).
Proof.
  intros w I. unfold check_representation. destruct (cls_of w t) as [[]|]; cbn; try exact I.
  - apply metric_check_II, I.
  - apply tensor_check_II, I.
  - apply tensor_check_II, I.
  - apply tensor_check_II, I.
  - apply tensor_check_II, I.
Qed.

Lemma transform_II L t c i : hoare (II L) (transform_coordinates t c i) (fun _ => II L) (II L).
Proof.
  intros w I. unfold transform_coordinates. destruct (cls_of w t) as [[]|]; cbn; try exact I.
  - apply metric_transform_II, I.
  - apply tensor_transform_II, I.
  - apply chr_transform_II, I.
  - apply curve_transform_II, I.
  - apply curve_transform_II, I.
Qed.

Lemma get_representation_II L t c i : hoare (II L) (get_representation t c i) (fun _ => II L) (II L).
Proof.
  unfold get_representation.
  eapply h_bind; [apply (h_isinstance _ _ _ (fun _ => II L)); auto|intros b].
  destruct (negb b); [apply h_raise; auto|].
  eapply h_bind; [apply (h_get _ _ (fun _ => II L)); auto|intros o].
  eapply h_bind; [apply (h_lift _ _ (fun _ => II L)); auto|intro_].
  eapply h_bind; [apply check_rep_II|intros b'].
  eapply h_bind with (Q' := fun _ => II L).
  { destruct b'; [apply h_ret; auto|apply transform_II]. }
  intro_. apply (h_conseq _ (fun w => II L w /\ True) _ _ (fun _ w => II L w /\ True)); [auto|tauto|].
  apply lookup_II.
Qed.

Lemma get_components_II L t c i : hoare (II L) (get_components t c i) (fun _ => II L) (II L).
Proof.
  unfold get_components. eapply h_bind; [apply (h_get _ _ (fun _ => II L)); auto|intros o].
  eapply h_bind with (Q' := fun _ => II L).
  { destruct c; [apply h_ret; auto|apply h_opt; auto]. }
  intros k. apply get_representation_II.
Qed.

Lemma change_indices_II L t i : hoare (II L) (change_default_indices t i) (fun _ => II L) (II L).
Proof.
  unfold change_default_indices. eapply h_bind; [apply (h_get _ _ (fun _ => II L)); auto|intros o].
  eapply h_bind; [apply (h_lift _ _ (fun _ => II L)); auto|intro_].
  eapply h_bind; [apply (h_opt _ _ _ (fun _ => II L)); auto|intros c].
  eapply h_bind; [apply check_rep_II|intros b]. destruct b; [|apply h_ret; auto].
  eapply h_bind; [apply (h_get _ _ (fun o w => II L w /\ obj_of w t = Some o)); auto|intros o'].
  apply h_put_II. intros w [I Ho]. split; [exact I|]. exists o'. split; [exact Ho|]. intros _ j Hj. left; exact Hj.
Qed.

Lemma change_coords_II L t c : hoare (II L) (change_default_coords t c) (fun _ => II L) (II L).
Proof.
  unfold change_default_coords.
  eapply h_bind; [apply (h_isinstance _ _ _ (fun _ => II L)); auto|intros b].
  destruct (negb b); [apply h_raise; auto|].
  eapply h_bind; [apply (h_get _ _ (fun o w => II L w /\ forall k, o_coords o = Some k -> In t L -> In k L))|intros o].
  { intros w o Ho I. split; [exact I|]. intros k Hk Ht. apply (II_ref L w t o); auto. right; right; left; exact Hk. } { auto. }
  eapply h_bind; [apply (h_opt _ _ _ (fun k w => II L w /\ (In t L -> In k L)))|intros k].
  { intros w y Hy [I H]. split; [exact I|]. apply H, Hy. } { tauto. }
  destruct (k =? c); [apply h_ret; tauto|].
  eapply h_bind; [apply (h_get _ _ (fun co w => II L w /\ (In t L -> forall j, refers co j -> In j L)))|intros co].
  { intros w co Ho [I H]. split; [exact I|]. intros Ht j Hj. apply (II_ref L w k co); auto. } { tauto. }
  destruct (dmem Nat.eqb c (o_trans co)) eqn:Ec; cbn [negb].
  2:{ eapply h_bind; [apply (h_get _ _ (fun _ => II L)); tauto|intros co'; apply h_raise; auto]. }
  apply dmem_key in Ec.
  eapply h_bind with (Q' := fun _ w => II L w /\ (In t L -> In c L)).
  { intros w [I H]. pose proof (check_rep_II L t c (o_indices o) w I) as G.
    destruct (check_representation t c (o_indices o) w) as [[b'|e] w']; auto.
    split; [exact G|]. intros Ht. apply (H Ht). right; right; right. exact Ec. }
  intros b'. eapply h_bind with (Q' := fun _ w => II L w /\ (In t L -> In c L)).
  { destruct b'; [apply h_ret; auto|]. intros w [I H]. pose proof (transform_II L t c (o_indices o) w I) as G.
    destruct (transform_coordinates t c (o_indices o) w) as [[[]|e] w']; auto. }
  intro_.
  eapply h_bind; [apply (h_get _ _ (fun o w => II L w /\ (In t L -> In c L) /\ obj_of w t = Some o)); tauto|intros o'].
  apply h_put_II. intros w (I & H & Ho). split; [exact I|]. exists o'. split; [exact Ho|].
  intros Ht j [Hj|[Hj|[Hj|Hj]]].
  - left; left; exact Hj.
  - left; right; left; exact Hj.
  - cbn in Hj. injection Hj as <-. right. auto.
  - left; right; right; right; exact Hj.
Qed.

Lemma change_name_II L t v : hoare (II L) (change_name t v) (fun _ => II L) (II L).
Proof.
  unfold change_name. destruct v; try (apply h_raise; auto).
  eapply h_bind; [apply (h_get _ _ (fun o w => II L w /\ obj_of w t = Some o)); auto|intros o'].
  apply h_put_II. intros w [I Ho]. split; [exact I|]. exists o'. split; [exact Ho|]. intros _ j Hj. left; exact Hj.
Qed.

Lemma change_symbol_II L t v : hoare (II L) (change_symbol t v) (fun _ => II L) (II L).
Proof.
  unfold change_symbol. destruct v; try (apply h_raise; auto);
    (eapply h_bind; [apply (h_get _ _ (fun o w => II L w /\ obj_of w t = Some o)); auto|intros o'];
     apply h_put_II; intros w [I Ho]; split; [exact I|]; exists o'; split; [exact Ho|]; intros _ j Hj; left; exact Hj).
Qed.

Lemma coord_components_II (P E : world -> Prop) c : (forall w, P w -> E w) -> hoare P (coord_components c) (fun _ => P) E.
Proof.
  intros H. unfold coord_components. eapply h_bind; [apply (h_get _ _ (fun _ => P)); auto|intros o].
  eapply h_bind; [apply (h_opt _ _ _ (fun _ => P)); auto|intros d]. apply h_opt; auto.
Qed.

Lemma simplify_II L t : hoare (II L) (simplify_tensor t) (fun _ => II L) (II L).
Proof.
  unfold simplify_tensor.
  eapply h_bind; [apply (h_get _ _ (fun o w => II L w /\ obj_of w t = Some o)); auto|intros o].
  eapply h_bind; [apply (h_opt _ _ _ (fun _ w => II L w /\ obj_of w t = Some o)); tauto|intros c].
  eapply h_bind; [apply coord_components_II; tauto|intro_].
  destruct (o_rank o =? 0); [destruct (flat_map snd (o_comps o)); [apply h_ret; tauto|apply h_raise; tauto]|].
  apply h_put_II. intros w [I Ho]. split; [exact I|]. exists o. split; [exact Ho|]. intros _ j [Hj|Hj]; left; [left|right; exact Hj].
  cbn [set_comps o_comps] in Hj. rewrite map_map in Hj. exact Hj.
Qed.

Lemma add_transformation_II L self coords rules :
  (forall c, coords = VObj c -> In c L) ->
  hoare (II L) (add_coord_transformation self coords rules) (fun _ => II L) (II L).
Proof.
  intros HL. unfold add_coord_transformation. destruct coords; try (apply h_raise; auto).
  eapply h_bind; [apply (h_isinstance _ _ _ (fun _ => II L)); auto|intros b].
  destruct (negb b); [apply h_raise; auto|]. destruct (self =? i); [apply h_raise; auto|].
  eapply h_bind; [apply (h_get _ _ (fun o w => II L w /\ obj_of w self = Some o)); auto|intros so].
  destruct rules as [l|].
  - destruct (forallb _ _); [|apply h_raise; tauto].
    apply h_put_II. intros w [I Ho]. split; [exact I|]. exists so. split; [exact Ho|].
    intros _ j [Hj|[Hj|[Hj|Hj]]].
    + left; left; exact Hj.
    + left; right; left; exact Hj.
    + left; right; right; left; exact Hj.
    + cbn [set_trans o_trans] in Hj. apply dset_keys in Hj as [->|Hj]; [right; apply HL; reflexivity|].
      left; right; right; right; exact Hj.
  - destruct (dmem _ _ _); [|apply h_raise; tauto].
    apply h_put_II. intros w [I Ho]. split; [exact I|]. exists so. split; [exact Ho|].
    intros _ j [Hj|[Hj|[Hj|Hj]]].
    + left; left; exact Hj.
    + left; right; left; exact Hj.
    + left; right; right; left; exact Hj.
    + cbn [set_trans o_trans] in Hj. apply ddel_keys in Hj. left; right; right; right; exact Hj.
Qed.

(** *** Constructors *)

Definition fresh_world (w : world) (k : cls) (o : obj) : world :=
  mkW (heap w ++ [(k, Some o)]) (insts w ++ [length (heap w)]).

Lemma obj_of_fresh w k o i :
  obj_of (fresh_world w k o) i = if i =? length (heap w) then Some o else obj_of w i.
Proof.
  unfold obj_of, fresh_world. cbn [heap]. destruct (Nat.eqb_spec i (length (heap w))) as [->|N].
  - rewrite nth_error_app2 by lia. rewrite Nat.sub_diag. reflexivity.
  - destruct (Nat.ltb_spec i (length (heap w))).
    + rewrite nth_error_app1 by lia. reflexivity.
    + rewrite nth_error_app2 by lia.
      destruct (i - length (heap w)) eqn:E; [lia|]. cbn. destruct n; cbn.
      all: destruct (nth_error (heap w) i) as [[]|] eqn:E2; [|reflexivity];
        apply nth_error_None in H; congruence.
Qed.

Lemma registered_lt w i : registry_ok w -> In i (insts w) -> i < length (heap w).
Proof.
  intros [_ H] Hi. specialize (H i Hi). destruct (obj_of w i) eqn:E; [|congruence]. eapply obj_of_lt, E.
Qed.

Lemma integrity_fresh w k o :
  integrity w -> (forall j, refers o j -> j = length (heap w) \/ In j (insts w)) ->
  integrity (fresh_world w k o).
Proof.
  intros [[Hn Ha] Hr] H. split; [split|].
  - cbn [fresh_world insts]. apply NoDup_snoc; [exact Hn|]. intros C.
    assert (length (heap w) < length (heap w)) by (apply registered_lt; [split; assumption|exact C]). lia.
  - intros i Hi. rewrite obj_of_fresh. destruct (Nat.eqb_spec i (length (heap w))); [discriminate|].
    apply Ha. cbn [fresh_world insts] in Hi. apply in_app_iff in Hi as [Hi|[Hi|[]]]; [exact Hi|lia].
  - intros i oi j Hi. rewrite obj_of_fresh. cbn [fresh_world insts] in *.
    destruct (Nat.eqb_spec i (length (heap w))) as [->|N].
    + intros E Rj; injection E as <-. apply in_app_iff. destruct (H j Rj) as [->|Hj]; [right; left; reflexivity|left; exact Hj].
    + intros Ho Rj. apply in_app_iff. apply in_app_iff in Hi as [Hi|[Hi|[]]]; [|lia].
      left. exact (Hr i oi j Hi Ho Rj).
Qed.

Lemma alloc_fresh k o w : alloc k o w = (Ok (length (heap w)), fresh_world w k o).
Proof. reflexivity. Qed.

(** The outcome of the base constructor: either an error that changes nothing, or the new
    object at the end. *)
Lemma base_ctor_spec k name comps coords indices symbol metric w :
  (exists e, base_ctor k name comps coords indices symbol metric w = (Err e, w)) \/
  exists c a x,
    coords = VObj c /\ cls_of w c = Some CCoordinates /\ as_array (mat_to_array comps) = Some a /\
    coord_components c w = (Ok x, w) /\
    validate_base name (mat_to_array comps) symbol indices (length (data x)) = Ok tt /\
    base_ctor k name comps coords indices symbol metric w =
      (Ok (length (heap w)), fresh_world w k (mkObj (name_of name) (sym_of symbol)
         (default_indices indices (rank a)) (rank a) (Some c) metric
         [(c, [(default_indices indices (rank a), a)])] [] [] [])).
Proof.
  unfold base_ctor. destruct coords as [| | | | | | |c|]; try (left; eexists; reflexivity).
  unfold mbind at 1, isinstance at 1. destruct (cls_of w c) as [k'|] eqn:Ec.
  2:{ left; eexists; reflexivity. }
  destruct k'; cbn [cls_eqb negb]; try (left; eexists; reflexivity).
  assert (Hcc : (exists e, coord_components c w = (Err e, w)) \/ exists x, coord_components c w = (Ok x, w)).
  { unfold coord_components, mbind, getobj. destruct (obj_of w c) as [o|]; [|left; eexists; reflexivity].
    destruct (dget Nat.eqb c (o_comps o)) as [d|]; cbn; [|left; eexists; reflexivity].
    destruct (dget cfg_eqb [1%Z] d) as [x|]; cbn; [right|left]; eexists; reflexivity. }
  unfold mbind at 1.
  destruct Hcc as [[e Hcc]|[x Hcc]]; rewrite Hcc; [left; eexists; reflexivity|].
  unfold mbind, mlift. destruct (validate_base _ _ _ _ _) as [[]|e] eqn:Ev; [|left; eexists; reflexivity].
  destruct (as_array (mat_to_array comps)) as [a|] eqn:Ea; cbn [mopt mret mraise]; [|left; eexists; reflexivity].
  right. exists c, a, x. repeat split; auto.
  unfold isinstance. rewrite Ec. cbn [cls_eqb negb]. rewrite Hcc, Ev. reflexivity.
Qed.

Lemma new_tensor_spec k name comps metric coords indices symbol w :
  (exists e, new_tensor_as k name comps metric coords indices symbol w = (Err e, w)) \/
  exists m c a x,
    metric = VObj m /\ cls_of w m = Some CMetric /\
    coords = VObj c /\ cls_of w c = Some CCoordinates /\ as_array (mat_to_array comps) = Some a /\
    coord_components c w = (Ok x, w) /\
    validate_base name (mat_to_array comps) symbol indices (length (data x)) = Ok tt /\
    new_tensor_as k name comps metric coords indices symbol w =
      (Ok (length (heap w)), fresh_world w k (mkObj (name_of name) (sym_of symbol)
         (default_indices indices (rank a)) (rank a) (Some c) (Some m)
         [(c, [(default_indices indices (rank a), a)])] [] [] [])).
Proof.
  unfold new_tensor_as. destruct metric as [| | | | | | |m|]; try (left; eexists; reflexivity).
  unfold mbind at 1, isinstance at 1. destruct (cls_of w m) as [k'|] eqn:Ec.
  2:{ left; eexists; reflexivity. }
  destruct k'; cbn [cls_eqb negb]; try (left; eexists; reflexivity).
  destruct (base_ctor_spec k name comps coords indices symbol (Some m) w) as [H|(c & a & x & H)]; [left; exact H|].
  right. exists m, c, a, x. unfold mbind, isinstance. rewrite Ec. cbn [cls_eqb negb]. tauto.
Qed.

Lemma new_coordinates_spec name comps indices symbol tr w :
  (exists e, new_coordinates name comps indices symbol tr w = (Err e, w)) \/
  exists a, as_array comps = Some a /\ rank a = 1 /\
    new_coordinates name comps indices symbol tr w =
      (Ok (length (heap w)), fresh_world w CCoordinates
         (mkObj (name_of name) (sym_of symbol) (default_indices indices (rank a)) (rank a) None None
            [(length (heap w), [([1]%Z, a)])] (syms_of comps)
            (map (fun cr => (fst cr, stored_rules (snd cr))) tr) [])).
Proof.
  unfold new_coordinates, mbind, mlift.
  destruct (validate_coordinates _ _ _ _ _) as [[]|e] eqn:Ev; [|left; eexists; reflexivity].
  destruct (as_array comps) as [a|] eqn:Ea; cbn [mopt mret mraise]; [|left; eexists; reflexivity].
  right. exists a. split; [reflexivity|]. split; [|reflexivity].
  unfold validate_coordinates in Ev. rewrite Ea in Ev.
  destruct (validate_object _ _ _ _) as [[]|]; cbn in Ev; [|discriminate].
  destruct (match indices with VTuple l => _ | _ => _ end); [discriminate|].
  destruct (match indices with VNone => _ | _ => _ end && _); [discriminate|].
  destruct (Nat.eqb_spec (rank a) 1); [assumption|discriminate].
Qed.

(** The metric constructor: an error before registration changes nothing; otherwise the
    new object is registered, whatever happens afterwards. *)
Lemma new_metric_cases name comps coords indices symbol w :
  (exists e, new_metric name comps coords indices symbol w = (Err e, w)) \/
  (exists c o w' r, coords = VObj c /\ cls_of w c = Some CCoordinates /\
     new_metric name comps coords indices symbol w = (r, w') /\
     w' = fresh_world w CMetric o /\ o_coords o = Some c /\ o_metric o = Some (length (heap w)) /\
     map fst (o_comps o) = [c] /\ o_trans o = [] /\
     (r = Ok (length (heap w)) \/ exists e, r = Err e) /\
     (forall l, indices = VTuple l ->
        r = Ok (length (heap w)) \/
        exists a e, as_array (mat_to_array comps) = Some a /\ ainv a = Err e)).
Proof.
  remember (new_metric name comps coords indices symbol w) as RES eqn:E.
  unfold new_metric in E. unfold mbind at 1, mlift at 1 in E.
  destruct (validate_metric _ _ _ _) as [[]|e] eqn:Ev; [|left; eexists; exact E].
  unfold mbind at 1 in E.
  destruct (base_ctor_spec CMetric name (mat_to_array comps) coords indices symbol None w) as [[e H]|(c & a & x & Hc & Hk & Ha & Hx & Hv & H)].
  { rewrite H in E. left; eexists; exact E. }
  rewrite H in E. right. clear H Hx Hv Ev.
  assert (Ha' : as_array (mat_to_array comps) = Some a).
  { destruct comps; cbn in Ha |- *; exact Ha. }
  set (o0 := mkObj (name_of name) (sym_of symbol) (default_indices indices (rank a)) (rank a) (Some c) None
    [(c, [(default_indices indices (rank a), a)])] [] [] []) in E.
  set (w0 := fresh_world w CMetric o0) in E.
  assert (Ho0 : obj_of w0 (length (heap w)) = Some o0).
  { unfold w0. rewrite obj_of_fresh, Nat.eqb_refl. reflexivity. }
  unfold mbind at 1, getobj in E. rewrite Ho0 in E.
  assert (Hput : forall o1 o2, put (length (heap w)) o2 (fresh_world w CMetric o1) = (Ok tt, fresh_world w CMetric o2)).
  { intros o1 o2. unfold put, fresh_world. cbn [heap insts].
    rewrite nth_error_app2 by lia. rewrite Nat.sub_diag. cbn [nth_error].
    f_equal. f_equal. clear. induction (heap w) as [|y l IH]; cbn; [reflexivity|]. rewrite IH. reflexivity. }
  unfold mbind at 1 in E. unfold w0 in E. rewrite Hput in E.
  cbn [o_coords set_metric o0 mopt] in E. unfold mbind at 1, mret at 1 in E.
  cbn [o_comps set_metric o0 dget] in E. rewrite Nat.eqb_refl in E.
  cbn [mopt] in E. unfold mbind at 1, mret at 1 in E. cbn [o_indices set_metric o0 dget] in E. rewrite cfg_eqb_refl in E.
  cbn [mopt] in E. unfold mbind at 1, mret at 1 in E. unfold mbind at 1 in E. rewrite Hput in E.
  assert (Htac : forall o' r, RES = (r, fresh_world w CMetric o') -> o_coords o' = Some c ->
     o_metric o' = Some (length (heap w)) -> map fst (o_comps o') = [c] -> o_trans o' = [] ->
     (r = Ok (length (heap w)) \/ exists e, r = Err e) ->
     (forall l, indices = VTuple l ->
        r = Ok (length (heap w)) \/
        exists a e, as_array (mat_to_array comps) = Some a /\ ainv a = Err e) ->
     exists c o w' r, coords = VObj c /\ cls_of w c = Some CCoordinates /\
     RES = (r, w') /\
     w' = fresh_world w CMetric o /\ o_coords o = Some c /\ o_metric o = Some (length (heap w)) /\
     map fst (o_comps o) = [c] /\ o_trans o = [] /\
     (r = Ok (length (heap w)) \/ exists e, r = Err e) /\
     (forall l, indices = VTuple l ->
        r = Ok (length (heap w)) \/
        exists a e, as_array (mat_to_array comps) = Some a /\ ainv a = Err e)).
  { intros o' r H1 H2 H3 H4 H5 H6 H7. exists c, o', (fresh_world w CMetric o'), r. tauto. }
  destruct indices as [| | |l| | | | |];
    try (eapply Htac; [exact E|reflexivity|reflexivity|cbn; rewrite Nat.eqb_refl; reflexivity|reflexivity
         |right; eexists; reflexivity|discriminate]).
  unfold mbind at 1, mlift at 1 in E. destruct (ainv a) as [gi|e] eqn:Ei.
  - unfold mbind at 1 in E. rewrite Hput in E. unfold mret in E.
    eapply Htac; [exact E|reflexivity|reflexivity|cbn; rewrite Nat.eqb_refl; reflexivity|reflexivity|left; reflexivity|].
    intros l' _. left. reflexivity.
  - eapply Htac; [exact E|reflexivity|reflexivity|cbn; rewrite Nat.eqb_refl; reflexivity|reflexivity|right; eexists; reflexivity|].
    intros l' _. right. exists a, e. split; [exact Ha'|exact Ei].
Qed.

End World.

(** The end of a formula: Calc and its clean-up; rejected formulas. *)
From Verif Require Import Alg Alg_P Arr Arr_P Spec UtilsM Utils_P Arr2_P TensorM WorldM SpecWorld World_P Registry_P History_P CalcM SpecCalc Keep_P Calc_P Calc2_P Calc3_P.
Local Open Scope nat_scope.

Section Run.
Context {A : AlgOps}.

(** *** What a clean-up keeps *)
Definition cleaned (w w' : world) : Prop :=
  length (heap w') = length (heap w) /\ (forall i, cls_of w' i = cls_of w i) /\ subseq (insts w') (insts w) /\
  (forall i o, obj_of w' i = Some o -> obj_of w i = Some o) /\
  (forall i o, obj_of w i = Some o -> o_name o <> "TEMP"%string -> obj_of w' i = Some o /\ (In i (insts w) -> In i (insts w'))).

Lemma cleaned_refl w : cleaned w w.
Proof.
  split; [reflexivity|]. split; [reflexivity|]. split; [apply subseq_refl|]. split; auto.
Qed.
Lemma cleaned_trans w1 w2 w3 : cleaned w1 w2 -> cleaned w2 w3 -> cleaned w1 w3.
Proof.
  intros (a1 & a2 & a3 & a4 & a5) (b1 & b2 & b3 & b4 & b5). split; [congruence|]. split; [intros; rewrite b2; apply a2|].
  split; [eapply subseq_trans; eauto|]. split; [auto|]. intros i o Ho Hn. destruct (a5 i o Ho Hn) as [H1 H2].
  destruct (b5 i o H1 Hn) as [H3 H4]. auto.
Qed.
Lemma subseq_del {X} p (l : list X) : subseq (del_nth p l) l.
Proof.
  revert p. induction l as [|x l IH]; intros [|p]; cbn; [constructor|constructor|apply subseq_drop, subseq_refl|apply subseq_keep, IH].
Qed.
Lemma del_in_other t p (l : list nat) i : index_of Nat.eqb t l = Some p -> i <> t -> In i l -> In i (del_nth p l).
Proof.
  revert p. induction l as [|x l IH]; intros p H N Hi; [destruct Hi|]. cbn [index_of] in H.
  destruct (Nat.eqb_spec t x) as [->|Nx].
  - injection H as <-. cbn. destruct Hi; [congruence|assumption].
  - destruct (index_of Nat.eqb t l) as [q|]; [|discriminate]. injection H as <-. cbn.
    destruct Hi as [<-|Hi]; [left; reflexivity|right; apply IH; auto].
Qed.
Lemma nth_error_set_nth_same {X} t (x : X) l : t < length l -> nth_error (set_nth t x l) t = Some x.
Proof. revert t. induction l as [|y l IH]; intros [|t] H; cbn in *; try lia; [reflexivity|]. apply IH. lia. Qed.
Lemma nth_error_set_nth_other {X} t i (x : X) l : t <> i -> nth_error (set_nth t x l) i = nth_error l i.
Proof. revert t i. induction l as [|y l IH]; intros [|t] [|i] H; cbn; try reflexivity; try congruence. apply IH. congruence. Qed.
Lemma heap_clear_obj w t k x ins i : nth_error (heap w) t = Some (k, x) ->
  obj_of (mkW (set_nth t (k, None) (heap w)) ins) i = if t =? i then None else obj_of w i.
Proof.
  intros H. unfold obj_of. cbn [heap]. assert (Hl : t < length (heap w)) by (apply nth_error_Some; congruence).
  destruct (Nat.eqb_spec t i) as [<-|N]; [rewrite nth_error_set_nth_same by exact Hl; reflexivity|rewrite nth_error_set_nth_other by exact N; reflexivity].
Qed.
Lemma heap_clear_cls w t k x ins i : nth_error (heap w) t = Some (k, x) ->
  cls_of (mkW (set_nth t (k, None) (heap w)) ins) i = cls_of w i.
Proof.
  intros H. unfold cls_of. cbn [heap]. assert (Hl : t < length (heap w)) by (apply nth_error_Some; congruence).
  destruct (Nat.eq_dec t i) as [<-|N]; [rewrite nth_error_set_nth_same by exact Hl; rewrite H; reflexivity|rewrite nth_error_set_nth_other by exact N; reflexivity].
Qed.

Lemma delete_cleaned w t o silent r w' : obj_of w t = Some o -> o_name o = "TEMP"%string -> delete t silent w = (r, w') -> cleaned w w'.
Proof.
  intros Ho Hn E. unfold delete in E. destruct (find _ _) as [k|].
  { destruct (obj_of w k), (obj_of w t); injection E as _ <-; apply cleaned_refl. }
  rewrite Ho in E. destruct (nth_error (heap w) t) as [[k x]|] eqn:Eh.
  2:{ unfold obj_of in Ho. rewrite Eh in Ho. discriminate. }
  assert (G : forall ins, subseq ins (insts w) -> (forall i, i <> t -> In i (insts w) -> In i ins) -> cleaned w (mkW (set_nth t (k, None) (heap w)) ins)).
  { intros ins Hs Hi. split; [cbn; apply set_nth_length|]. split; [intros i; eapply heap_clear_cls; eauto|]. split; [exact Hs|].
    split.
    - intros i oi. rewrite (heap_clear_obj w t k x ins i Eh). destruct (t =? i); [discriminate|auto].
    - intros i oi Hoi Hni. rewrite (heap_clear_obj w t k x ins i Eh). destruct (Nat.eqb_spec t i) as [<-|N]; [congruence|].
      split; [exact Hoi|]. apply Hi. congruence. }
  destruct (index_of Nat.eqb t (insts w)) as [p|] eqn:Ei; injection E as _ <-.
  - apply G; [apply subseq_del|]. intros i N H. eapply del_in_other; eauto.
  - apply G; [apply subseq_refl|auto].
Qed.
Lemma body_cleaned w i r w' : if_named "TEMP" (fun i => delete i true) i w = (r, w') -> cleaned w w'.
Proof.
  unfold if_named, mbind, getobj. destruct (obj_of w i) as [o|] eqn:Ho; [|intros E; injection E as _ <-; apply cleaned_refl].
  destruct (String.eqb_spec (o_name o) "TEMP") as [En|_]; [|intros E; injection E as _ <-; apply cleaned_refl].
  intros E. eapply delete_cleaned; eauto.
Qed.
Lemma for_cleaned body : (forall w i r w', body i w = (r, w') -> cleaned w w') ->
  forall f p w r w', for_instances f p body w = (r, w') -> cleaned w w'.
Proof.
  intros HB. induction f as [|f IH]; intros p w r w' E; cbn [for_instances] in E.
  - destruct (nth_error (insts w) p); injection E as _ <-; apply cleaned_refl.
  - destruct (nth_error (insts w) p) as [i|]; [|injection E as _ <-; apply cleaned_refl].
    unfold mbind in E. destruct (body i w) as [[u|e] w1] eqn:E1.
    + eapply cleaned_trans; [eapply HB, E1|eapply IH, E].
    + injection E as _ <-. eapply HB, E1.
Qed.
Lemma times_cleaned k : forall w r w', times k (pass (if_named "TEMP" (fun i => delete i true))) w = (r, w') -> cleaned w w'.
Proof.
  induction k as [|k IH]; intros w r w' E; cbn [times] in E; [injection E as _ <-; apply cleaned_refl|].
  unfold mbind in E. destruct (pass _ w) as [[u|e] w1] eqn:E1.
  - eapply cleaned_trans; [|eapply IH, E]. eapply for_cleaned; [apply body_cleaned|]. unfold pass in E1. exact E1.
  - injection E as _ <-. eapply for_cleaned; [apply body_cleaned|]. unfold pass in E1. exact E1.
Qed.

Lemma passes_total k w : registry_ok w -> (forall j, In j (insts w) -> named w "TEMP" j -> ~ used w j) ->
  exists w', times k (pass (if_named "TEMP" (fun i => delete i true))) w = (Ok tt, w') /\ registry_ok w' /\ cleaned w w'.
Proof.
  intros R Hu. destruct (times_skip (is_named w "TEMP") _ (agrees w) (body_for_delete w "TEMP") (fun a b => agrees_kept w a b) k w) as (w' & E & _ & K).
  - intros i _. reflexivity.
  - exact R.
  - intros j Hj Hp. apply Hu; [exact Hj|]. unfold is_named in Hp. destruct (obj_of w j) as [o|] eqn:Eo; [|discriminate].
    apply String.eqb_eq in Hp. exists o. auto.
  - exists w'. split; [exact E|]. split; [apply K|]. eapply times_cleaned, E.
Qed.

(** *** The value of Calc *)
Lemma fetch_indices s order p (i : list Z) w : Forall2 (pos_rel s) order p -> length i = length s -> NoDup s -> Permutation order s ->
  exists i', mmap (mnth i) p w = (Ok i', w) /\ same_indices s i order i' /\ (valid_cfg i -> valid_cfg i') /\ length i' = length order.
Proof.
  intros Hp Hl Hn Hperm. exists (map (fun j => nth j i 0%Z) p).
  assert (Lp := F2_length _ _ _ Hp). assert (Bp := pos_lt _ _ _ Hp).
  split; [|split; [|split]].
  - apply (mmap_opt EIndexError (nth_error i)). clear - Bp Hl. induction Bp as [|j p Hj _ IH]; [constructor|].
    cbn [map]. constructor; [|exact IH]. apply nth_error_nth'. lia.
  - split; [exact Hl|]. split; [rewrite map_length; lia|]. intros x z.
    assert (G : In (x, z) (combine order (map (fun j => nth j i 0%Z) p)) <-> In x order /\ exists j, spos x s = Some j /\ z = nth j i 0%Z).
    { clear - Hp. induction Hp as [|y j order p Hy _ IH]; cbn [map combine In]; [split; [intros []|intros [[] _]]|]. rewrite IH. split.
      - intros [E|[H1 H2]]; [injection E as <- <-; split; [left; reflexivity|exists j; auto]|split; [right; exact H1|exact H2]].
      - intros [[<-|H1] (q & Hq & Hz)]; [|right; eauto]. left. unfold pos_rel in Hy. rewrite Hy in Hq. injection Hq as <-. congruence. }
    rewrite G. split.
    + intros H. split; [eapply Permutation_in; [symmetry; exact Hperm|]; eapply in_combine_l, H|].
      apply In_nth_error in H as [q Hq]. apply combine_nth_error in Hq as [Hx Hz]. exists q.
      split; [apply spos_nth; assumption|]. symmetry. apply nth_error_nth. exact Hz.
    + intros [_ (j & Hj & ->)]. apply spos_some in Hj as [Hj _]. apply (nth_error_In _ j). apply combine_nth_error. split; [exact Hj|].
      apply nth_error_nth'. rewrite Hl. apply nth_error_Some. congruence.
  - intros V. apply Forall_forall. intros z Hz. apply in_map_iff in Hz as (j & <- & Hj). rewrite Forall_forall in Bp. specialize (Bp j Hj).
    apply (proj1 (Forall_forall _ _) V). apply nth_In. lia.
  - rewrite map_length. lia.
Qed.

Context {L : AlgLaws A}.

(** The object Calc creates, before the clean-up. *)
Lemma run_create w x t o m c n a name symbol req :
  typed w -> labelled w x t o -> o_metric o = Some m -> stored_default o c a -> coordinate_system w c n -> (exists k, cls_of w t = Some k /\ k <> CCoordinates) ->
  cubic n a -> rank a = o_rank o -> (req = [] \/ Permutation (c_syms x) req) ->
  let order := match req with [] => c_syms x | _ => req end in
  exists i b, same_indices (c_syms x) (o_indices o) order i /\ valid_cfg i /\ cubic n b /\ rank b = length i /\
    (forall f, (forall s, In s order -> f s < n) -> keq (aget b (map f order)) (aget a (map f (c_syms x)))) /\
    run_calc x name symbol req w = (clean_temporaries ;; mret (length (heap w))) (fresh_world w CTensor (tobj name symbol i c m b)).
Proof.
  intros Hty (Rx & Tx & Ox & Nx & Lx & Kx & Vx) Mo Hs Hc (k & Hk & Nk) Ha Hr Hreq order.
  assert (Hperm : Permutation order (c_syms x)).
  { unfold order. destruct Hreq as [->|H]; [apply Permutation_refl|]. destruct req; [apply Permutation_refl|symmetry; exact H]. }
  assert (No : NoDup order) by (eapply Permutation_NoDup; [symmetry; exact Hperm|exact Nx]).
  destruct (pos_ex order (c_syms x)) as [p Hp]; [intros s Hs'; eapply Permutation_in; eauto|].
  destruct (fetch_indices (c_syms x) order p (o_indices o) w Hp (eq_sym Lx) Nx Hperm) as (i & Ei & Hi & Vi & Li). specialize (Vi Vx).
  destruct (permuted_value n a order (c_syms x) p Ha) as (b & Eb & Hb & Hrb & Vb); try assumption; [congruence|].
  set (b' := if 0 <? rank b then amap simp b else b).
  assert (Hb' : cubic n b' /\ rank b' = rank b /\ forall f, (forall s, In s order -> f s < n) -> keq (aget b' (map f order)) (aget b (map f order))).
  { unfold b'. destruct (0 <? rank b); [|split; [exact Hb|split; [reflexivity|reflexivity]]].
    destruct (amap_values n simp b Hb) as (H1 & H2 & H3). split; [exact H1|]. split; [exact H2|]. intros f Hf.
    rewrite H3; [apply simp_ok|]. destruct Hb as [_ ->]. rewrite Hrb. apply inb_assign, Hf. }
  destruct Hb' as (Cb' & Rb' & Vb'). exists i, b'. split; [exact Hi|]. split; [exact Vi|]. split; [exact Cb'|]. split; [congruence|].
  split; [intros f Hf; rewrite (Vb' f Hf), (Vb f Hf); reflexivity|].
  unfold run_calc. cbv zeta.
  assert (Eg : negb (length req =? 0) && negb (is_permutation (c_syms x) req) = false).
  { destruct Hreq as [->|H]; [reflexivity|]. rewrite (proj2 (is_permutation_spec _ _) H). apply andb_false_r. }
  rewrite Eg. fold order. rewrite (bind_ok _ _ p w w) by (apply mmap_opt, Hp).
  rewrite (bind_ok _ _ t w w) by (unfold tensor_of; rewrite Tx; reflexivity). rewrite (bind_ok _ _ o w w) by (apply getobj_ok, Ox).
  rewrite (bind_ok _ _ i w w) by exact Ei.
  rewrite (bind_ok _ _ a w w).
  2:{ rewrite (proj1 Hs). eapply stored_default_get; eauto. apply Hc. }
  rewrite (bind_ok _ _ b w w) by (apply mlift_ok, Eb). fold b'. rewrite Mo, (proj1 Hs).
  assert (Li' : length i = rank b') by congruence.
  assert (Hm : cls_of w m = Some CMetric) by (destruct (Hty t o Ox) as [H1 _]; apply H1, Mo).
  rewrite (bind_ok _ _ _ _ _ (make_tensor_ok w CTensor name b' m c i symbol n Hm Hc Cb' Vi Li')). reflexivity.
Qed.

Lemma registry_fresh w k o : registry_ok w -> registry_ok (fresh_world w k o).
Proof.
  intros [Hn Ha]. assert (Hlt : forall j, In j (insts w) -> j < length (heap w)).
  { intros j Hj. specialize (Ha j Hj). destruct (obj_of w j) eqn:E; [|congruence]. eapply obj_of_lt, E. }
  split.
  - cbn [fresh_world insts]. apply nodup_app; [exact Hn|repeat constructor; intros []|]. intros j Hj [<-|[]]. specialize (Hlt _ Hj). lia.
  - intros j Hj. cbn [fresh_world insts] in Hj. rewrite obj_of_fresh. destruct (Nat.eqb_spec j (length (heap w))); [discriminate|].
    apply in_app_iff in Hj as [Hj|[Hj|[]]]; [apply Ha, Hj|congruence].
Qed.
Lemma named_fresh_old w k o s j : j <> length (heap w) -> (named (fresh_world w k o) s j <-> named w s j).
Proof. intros N. unfold named. rewrite obj_of_fresh. destruct (Nat.eqb_spec j (length (heap w))); [contradiction|tauto]. Qed.

(** A new tensor does not use a temporary one. *)
Lemma temps_fresh w k o : registry_ok w -> temps_unused w -> (forall j, refers o j -> ~ named w "TEMP" j) ->
  (forall i oi, In i (insts w) -> obj_of w i = Some oi -> ~ refers oi (length (heap w))) ->
  temps_unused (fresh_world w k o).
Proof.
  intros R Ht Hr Hd j Hj Hnm (i & oi & Hi & Ni & Ho & Hrf). cbn [fresh_world insts] in Hi, Hj.
  rewrite obj_of_fresh in Ho. destruct (Nat.eqb_spec i (length (heap w))) as [->|Nl].
  - injection Ho as <-. apply (Hr j Hrf). eapply named_fresh_old, Hnm. auto.
  - apply in_app_iff in Hi as [Hi|[Hi|[]]]; [|congruence].
    destruct (Nat.eq_dec j (length (heap w))) as [->|Nj]; [exact (Hd i oi Hi Ho Hrf)|].
    apply in_app_iff in Hj as [Hj|[Hj|[]]]; [|congruence]. apply (Ht j Hj); [eapply named_fresh_old; eauto|].
    exists i, oi. auto.
Qed.
Lemma tobj_refers name sy i c m (a : arr) j : refers (tobj name sy i c m a) j -> j = c \/ j = m.
Proof. intros [[H|[]]|[H|[H|[]]]]; cbn in H; auto; injection H as <-; auto. Qed.

Theorem run_values w x t o m c n a name symbol req :
  typed w -> integrity w -> temps_unused w -> ~ named w "TEMP" m -> ~ named w "TEMP" c ->
  name <> "TEMP"%string ->
  labelled w x t o -> o_metric o = Some m -> stored_default o c a -> coordinate_system w c n -> (exists k, cls_of w t = Some k /\ k <> CCoordinates) ->
  cubic n a -> rank a = o_rank o -> (req = [] \/ Permutation (c_syms x) req) ->
  let order := match req with [] => c_syms x | _ => req end in
  exists r o' i b w', run_calc x name symbol req w = (Ok r, w') /\
    ~ In r (insts w) /\ In r (insts w') /\ cls_of w' r = Some CTensor /\ obj_of w' r = Some o' /\
    o_name o' = name /\ o_symbol o' = symbol /\ o_metric o' = Some m /\ o_coords o' = Some c /\ o_indices o' = i /\ o_comps o' = [(c, [(i, b)])] /\
    same_indices (c_syms x) (o_indices o) order i /\ cubic n b /\ rank b = length i /\
    (forall f, (forall s, In s order -> f s < n) -> keq (aget b (map f order)) (aget a (map f (c_syms x)))) /\
    (forall j oj, In j (insts w) -> obj_of w j = Some oj -> o_name oj <> "TEMP"%string -> In j (insts w') /\ obj_of w' j = Some oj) /\
    (forall j, In j (insts w') -> j = r \/ In j (insts w)).
Proof.
  intros Hty [R Hint] Ht Nm Nc Hname Hx Mo Hs Hc Hk Ha Hr Hreq order.
  destruct (run_create w x t o m c n a name symbol req) as (i & b & Hi & Vi & Cb & Rb & Vb & E); try assumption.
  assert (Hlt : forall j, In j (insts w) -> j < length (heap w)).
  { intros j Hj. destruct R as [_ R]. specialize (R j Hj). destruct (obj_of w j) eqn:Eo; [|congruence]. eapply obj_of_lt, Eo. }
  assert (Hb : forall i oi j, In i (insts w) -> obj_of w i = Some oi -> refers oi j -> j < length (heap w)) by (intros; apply Hlt; eauto).
  destruct (passes_total 2 (fresh_world w CTensor (tobj name symbol i c m b))) as (w' & E' & R' & K).
  - apply registry_fresh, R.
  - apply temps_fresh; [exact R|exact Ht| |].
    + intros j Hj. apply tobj_refers in Hj as [->| ->]; assumption.
    + intros j oj Hj Hoj Hrf. specialize (Hb j oj _ Hj Hoj Hrf). lia.
  - destruct K as (_ & Kc & Ks & Kb & Kf).
    exists (length (heap w)), (tobj name symbol i c m b), i, b, w'.
    destruct (Kf (length (heap w)) (tobj name symbol i c m b) (obj_fresh_new _ _ _) Hname) as [F1 F2].
    split; [rewrite E; rewrite (bind_ok _ _ tt _ _ E'); reflexivity|].
    split; [intros C; specialize (Hlt _ C); lia|]. split; [apply F2; cbn [fresh_world insts]; apply in_app_iff; right; left; reflexivity|].
    split; [rewrite Kc; apply cls_fresh_new|]. split; [exact F1|]. split; [reflexivity|]. split; [reflexivity|]. split; [reflexivity|].
    split; [reflexivity|]. split; [reflexivity|]. split; [reflexivity|]. split; [exact Hi|]. split; [exact Cb|]. split; [exact Rb|]. split; [exact Vb|].
    split.
    + intros j oj Hj Hoj Hnj. destruct (Kf j oj (obj_fresh_old _ _ _ _ _ Hoj) Hnj) as [G1 G2]. split; [|exact G1].
      apply G2. cbn [fresh_world insts]. apply in_app_iff. left; exact Hj.
    + intros j Hj. apply (subseq_in _ _ _ Ks) in Hj. cbn [fresh_world insts] in Hj. apply in_app_iff in Hj as [Hj|[Hj|[]]]; auto.
Qed.

Lemma run_error x name symbol req w : req <> [] -> ~ Permutation (c_syms x) req -> run_calc x name symbol req w = (Err EValueError, w).
Proof.
  intros Hr Hp. unfold run_calc. cbv zeta. destruct req as [|y req]; [contradiction|]. cbn [length Nat.eqb negb andb].
  destruct (is_permutation (c_syms x) (y :: req)) eqn:E; [|reflexivity]. apply is_permutation_spec in E. contradiction.
Qed.

(** *** Rejected sums *)
Lemma add_zero x w : calc_add x OZero w = (Ok x, w) /\ calc_radd x OZero w = (Ok x, w).
Proof. split; reflexivity. Qed.
Lemma add_type x w y : (exists k, y = OScalar k) \/ y = OOther -> calc_add x y w = (Err ETypeError, w).
Proof. intros [[k ->]| ->]; reflexivity. Qed.
Lemma add_role x y w : c_role x <> RTensor \/ c_role y <> RTensor -> calc_add x (OCalc y) w = (Err EValueError, w).
Proof. intros H. unfold calc_add. destruct (c_role x), (c_role y); cbn [is_tensor_role negb orb]; try reflexivity. destruct H; congruence. Qed.
Lemma add_mismatch x y t1 t2 o1 o2 w : c_role x = RTensor -> c_role y = RTensor -> c_tensor x = Some t1 -> c_tensor y = Some t2 ->
  obj_of w t1 = Some o1 -> obj_of w t2 = Some o2 ->
  o_metric o1 <> o_metric o2 \/ o_rank o1 <> o_rank o2 \/ (c_syms x <> [] /\ c_syms y <> [] /\ ~ Permutation (c_syms x) (c_syms y)) ->
  calc_add x (OCalc y) w = (Err EValueError, w).
Proof.
  intros Rx Ry Tx Ty Ox Oy H. unfold calc_add. rewrite Rx, Ry. cbn [is_tensor_role negb orb]. unfold metric_attr. rewrite Tx, Ty.
  rewrite (bind_ok _ _ (o_metric o1) w w) by (rewrite Ox; reflexivity). rewrite (bind_ok _ _ (o_metric o2) w w) by (rewrite Oy; reflexivity).
  destruct (opt_oid_eqb (o_metric o1) (o_metric o2)) eqn:Em; cbn [negb]; [|reflexivity]. apply opt_oid_eqb_spec in Em.
  rewrite (bind_ok _ _ t1 w w) by (unfold tensor_of; rewrite Tx; reflexivity). rewrite (bind_ok _ _ o1 w w) by (apply getobj_ok, Ox).
  rewrite (bind_ok _ _ t2 w w) by (unfold tensor_of; rewrite Ty; reflexivity). rewrite (bind_ok _ _ o2 w w) by (apply getobj_ok, Oy).
  destruct (Nat.eqb_spec (o_rank o1) (o_rank o2)) as [Er|]; cbn [negb]; [|reflexivity].
  destruct H as [H|[H|(H1 & H2 & H3)]]; [contradiction|contradiction|].
  destruct (c_syms x) as [|a s]; [contradiction|]. destruct (c_syms y) as [|b s']; [contradiction|]. cbn [length Nat.eqb negb andb].
  destruct (is_permutation (a :: s) (b :: s')) eqn:E; [apply is_permutation_spec in E; contradiction|reflexivity].
Qed.
End Run.

(** Concrete sessions for history independence. *)
From Coq Require Import QArith Qcanon.
From Verif Require Import Alg Alg_P Arr Arr_P Spec UtilsM Arr2_P Act_P TensorM RL_P Tensor_P Inst Ex WorldM SpecWorld World_P Registry_P Geo_P History_P ExWorld Witness_Tensor_P Witness_World_P.
Local Open Scope nat_scope.

(** Everything stored for o, checked entry by entry. *)
Definition cfgb (r : nat) (i : list Z) : bool :=
  forallb (fun z => (z =? 1)%Z || (z =? -1)%Z) i && (length i =? r).
Definition holdsb (n r : nat) (a : @arr PolyOps) (f : list nat -> pexp) : bool :=
  list_eqb (shape a) (repeat n r) && (length (data a) =? prodn (repeat n r)) &&
  forallb (fun idx => pisz (PSub (aget a idx) (f idx))) (all_idx (repeat n r)).
Definition storedb (g : @geometry PolyOps) (sys : list oid) (r : nat) (f : oid -> list nat -> pexp) (o : @obj PolyOps) : bool :=
  forallb (fun cd => inb_list (fst cd) sys &&
    forallb (fun ia => cfgb r (fst ia) && holdsb (g_n g) r (snd ia) (with_indices g (fst cd) (fst ia) (f (fst cd)))) (snd cd)) (o_comps o).

Lemma cfgb_spec r i : cfgb r i = true -> valid_cfg i /\ length i = r.
Proof.
  intros H. apply andb_prop in H as [H1 H2]. apply Nat.eqb_eq in H2. split; [|exact H2].
  apply Forall_forall. intros z Hz. rewrite forallb_forall in H1. apply H1 in Hz. apply orb_prop in Hz as [E|E]; apply Z.eqb_eq in E; auto.
Qed.

Lemma holdsb_spec n r a f : holdsb n r a f = true -> holds n r a f.
Proof.
  intros H. apply andb_prop in H as [H H3]. apply andb_prop in H as [H1 H2]. apply list_eqb_spec in H1. apply Nat.eqb_eq in H2.
  assert (R : rank a = r) by (unfold rank; rewrite H1; apply repeat_length).
  split; [split; [unfold awf; rewrite H1; exact H2|rewrite R; exact H1]|]. split; [exact R|].
  intros idx Hi. rewrite forallb_forall in H3. apply pisz_sub_eq, H3, in_all_idx, inb_rng, Hi.
Qed.

Lemma storedb_spec g sys r f o : storedb g sys r f o = true -> (forall c, In c sys -> g_sys g c) -> stored_ok g r f o.
Proof.
  intros H Hs c d i a Hd Ha. unfold storedb in H. rewrite forallb_forall in H.
  apply dget_In in Hd. apply H in Hd. cbn [fst snd] in Hd. apply andb_prop in Hd as [H1 H2]. apply inb_list_spec in H1.
  rewrite forallb_forall in H2. apply cget_In in Ha. apply H2 in Ha. cbn [fst snd] in Ha. apply andb_prop in Ha as [H3 H4].
  apply cfgb_spec in H3 as [H3 H5]. apply holdsb_spec in H4. auto.
Qed.

Lemma ex_geo_consistent : consistent ex_geo.
Proof.
  split; [cbn; lia|]. split.
  - intros c [-> | ->]; (split; [reflexivity|split]).
    + exact ex_g_inverse.
    + intros i j Hi Hj. cbn in Hi, Hj. two i Hi; two j Hj; polyeq.
    + split; intros i j Hi Hj; cbn in Hi, Hj; two i Hi; two j Hj; polyeq.
    + intros i j Hi Hj. cbn in Hi, Hj. two i Hi; two j Hj; polyeq.
  - assert (Idx1 : forall idx, in_range 2 1 idx -> In idx (all_idx [2])) by (intros idx H; apply in_all_idx; apply (proj2 (inb_rng 2 1 idx)), H).
    assert (Idx2 : forall idx, in_range 2 2 idx -> In idx (all_idx [2; 2])) by (intros idx H; apply in_all_idx; apply (proj2 (inb_rng 2 2 idx)), H).
    intros c c' R [-> | ->] HR; cbn in HR.
    + destruct c' as [|[|c']]; cbn in HR; try discriminate. injection HR as <-.
      split; [right; reflexivity|]. split; [repeat constructor; cbn; intuition discriminate|].
      split; intros idx Hi; [apply Idx1 in Hi|apply Idx2 in Hi]; cbn in Hi.
      all: repeat (destruct Hi as [<-|Hi]; [polyeq|]); destruct Hi.
    + destruct c' as [|c']; cbn in HR; try discriminate. injection HR as <-.
      split; [left; reflexivity|]. split; [repeat constructor; cbn; intuition discriminate|].
      split; intros idx Hi; [apply Idx1 in Hi|apply Idx2 in Hi]; cbn in Hi.
      all: repeat (destruct Hi as [<-|Hi]; [polyeq|]); destruct Hi.
Qed.

(** The views of the session that are compared by computation. *)
Definition obj_view {B} (w : @world PolyOps) (i : oid) (f : @obj PolyOps -> B) (b : B) : B :=
  match obj_of w i with Some o => f o | None => b end.

Definition typedb (w : @world PolyOps) : bool :=
  forallb (fun i => obj_view w i (fun o =>
    match o_metric o with Some m => clsb w m CMetric | None => true end &&
    match o_coords o with Some c => clsb w c CCoordinates | None => true end) true) (seq 0 (length (heap w))).

Lemma typedb_spec w : typedb w = true -> typed w.
Proof.
  intros H i o Ho. unfold typedb in H. rewrite forallb_forall in H.
  assert (Hi : In i (seq 0 (length (heap w)))).
  { apply in_seq. split; [lia|]. cbn. unfold obj_of in Ho. destruct (nth_error (heap w) i) eqn:E; [|discriminate].
    apply nth_error_Some. congruence. }
  apply H in Hi. unfold obj_view in Hi. rewrite Ho in Hi. apply andb_prop in Hi as [H1 H2].
  split; intros x Hx; rewrite Hx in *; apply clsb_spec; assumption.
Qed.

Definition opt_eqb (x : option oid) (j : oid) : bool := match x with Some i => i =? j | None => false end.
Lemma opt_eqb_spec x j : opt_eqb x j = true -> x = Some j.
Proof. destruct x; cbn; [|discriminate]. intros H. apply Nat.eqb_eq in H. congruence. Qed.

Lemma ex_hist_represents : represents ex_geo 3 2 ex_hist_w.
Proof.
  assert (SysIn : forall c, In c [0; 1] -> g_sys ex_geo c) by (intros c [<-|[<-|[]]]; cbn; auto).
  split; [apply typedb_spec; vmtrue|]. split; [apply clsb_spec; vmtrue|]. split; [apply clsb_spec; vmtrue|].
  split; [|split].
  - assert (H : obj_view ex_hist_w 3 (fun o => opt_eqb (o_metric o) 2 && (o_rank o =? 1) && cfgb 1 (o_indices o) && opt_eqb (o_coords o) 0 &&
       storedb ex_geo [0; 1] 1 (g_T ex_geo) o) false = true) by vmtrue.
    unfold obj_view in H. destruct (obj_of ex_hist_w 3) as [o|]; [|discriminate H]. exists o. split; [reflexivity|].
    apply andb_prop in H as [H H5]. apply andb_prop in H as [H H4]. apply andb_prop in H as [H H3]. apply andb_prop in H as [H1 H2].
    apply cfgb_spec in H3 as [H3 H6]. apply Nat.eqb_eq in H2. apply opt_eqb_spec in H1, H4.
    split; [exact H1|]. split; [exact H2|]. split; [exact H3|]. split; [exact H6|]. split; [exists 0; split; [exact H4|left; reflexivity]|].
    apply (storedb_spec _ [0; 1]); [exact H5|exact SysIn].
  - assert (H : obj_view ex_hist_w 2 (fun o => (o_rank o =? 2) && cfg_eqb (o_indices o) [-1; -1]%Z && opt_eqb (o_coords o) 0 &&
       storedb ex_geo [0; 1] 2 (fun c => mat_comps (g_G ex_geo c)) o) false = true) by vmtrue.
    unfold obj_view in H. destruct (obj_of ex_hist_w 2) as [o|]; [|discriminate H]. exists o. split; [reflexivity|].
    apply andb_prop in H as [H H4]. apply andb_prop in H as [H H3]. apply andb_prop in H as [H1 H2].
    apply Nat.eqb_eq in H1. apply cfg_eqb_spec in H2. apply opt_eqb_spec in H3.
    split; [exact H1|]. split; [left; exact H2|]. split; [exists 0; split; [exact H3|left; reflexivity]|].
    apply (storedb_spec _ [0; 1]); [exact H4|exact SysIn].
  - assert (V : forall c, In c [0; 1] -> obj_view ex_hist_w c (fun o => o_syms o) [] = g_syms ex_geo c /\
      (obj_view ex_hist_w c (fun o => o_trans o) [] : list (nat * list (string * pexp))) = g_rules ex_geo c /\
      obj_view ex_hist_w c (fun o => match o_jacs o with [] => true | _ => false end) false = true /\ clsb ex_hist_w c CCoordinates = true).
    { intros c [<-|[<-|[]]]; (split; [vm_compute; reflexivity|]; split; [vm_compute; reflexivity|]; split; vmtrue). }
    intros c Hc. assert (Hc' : In c [0; 1]) by (destruct Hc as [-> | ->]; cbn; auto).
    destruct (V c Hc') as (V1 & V2 & V3 & V4). apply clsb_spec in V4. split; [exact V4|].
    unfold obj_view in V1, V2, V3. destruct (obj_of ex_hist_w c) as [o|]; [|discriminate V3]. exists o. split; [reflexivity|].
    split; [exact V1|]. split; [exact V2|]. destruct (o_jacs o); [|discriminate V3]. intros c' j Hj. discriminate Hj.
Qed.

Lemma ex_histories : Forall (history_op 2) ex_history1 /\ Forall (history_op 2) ex_history2 /\
  exists a b w1 w2, get_components 3 (Some 1) (Some [1]%Z) (after ex_history1 ex_hist_w) = (Ok a, w1) /\
    get_components 3 (Some 1) (Some [1]%Z) (after ex_history2 ex_hist_w) = (Ok b, w2).
Proof.
  split; [repeat (apply Forall_cons; [cbn; auto; try discriminate|]); apply Forall_nil|].
  split; [repeat (apply Forall_cons; [cbn; auto; try discriminate|]); apply Forall_nil|].
  destruct (out_ok (get_components 3 (Some 1) (Some [1]%Z)) (after ex_history1 ex_hist_w)) as (a & w1 & E1 & _); [vmtrue|].
  destruct (out_ok (get_components 3 (Some 1) (Some [1]%Z)) (after ex_history2 ex_hist_w)) as (b & w2 & E2 & _); [vmtrue|].
  exists a, b, w1, w2. auto.
Qed.

(** With a mixed default configuration the metric stores the identity as its components. *)
Lemma mixed_default_witness :
  exists (g : @geometry PolyOps) t m w ops c a b w1 w2 i j,
  consistent g /\ represents g t m w /\
  Forall (fun o => match o with OpGet _ _ _ | OpIndices _ _ => True | _ => False end) ops /\
  get_components m (Some c) (Some [-1; -1]%Z) (after ops w) = (Ok a, w1) /\
  get_components m (Some c) (Some [-1; -1]%Z) w = (Ok b, w2) /\
  ~ keq (aget a [i; j]) (aget b [i; j]).
Proof.
  destruct (differ_spec (get_components 2 (Some 1) (Some [-1; -1]%Z)) (get_components 2 (Some 1) (Some [-1; -1]%Z))
    (after [OpIndices 2 [1; -1]%Z; OpGet 2 (Some 1) (Some [1; -1]%Z)] ex_hist_w) ex_hist_w [0; 1] (fun _ => (1 + 1)%Qc)) as (a & b & w1 & w2 & E1 & E2 & N); [vmtrue|].
  exists ex_geo, 3, 2, ex_hist_w, [OpIndices 2 [1; -1]%Z; OpGet 2 (Some 1) (Some [1; -1]%Z)], 1, a, b, w1, w2, 0, 1.
  split; [apply ex_geo_consistent|]. split; [apply ex_hist_represents|].
  split; [repeat (apply Forall_cons; [exact I|]); apply Forall_nil|]. split; [exact E1|]. split; [exact E2|exact N].
Qed.

(** The curvature functions: the statements collected. *)
From Verif Require Import Alg Arr Spec TensorM WorldM SpecWorld CalcM SpecCalc CurvM SpecCurv World_P Registry_P Form_P Form2_P CurvRun_P CurvRun2_P Weyl2_P Curv_P.
Local Open Scope nat_scope.

Section CurvRuns.
Context {A : AlgOps} {L : AlgLaws A} {D : DiffLaws A}.
Variables (n : nat) (m c : oid) (name : string) (xs : list string) (g gi : nat -> nat -> K).
Notation session w := (metric_session w n m c name xs g gi).
Notation known w := (known_results n xs g gi w m c name).
Notation gives := (gives n xs g gi).

Lemma done_gives w l s p i h : session w -> done n m c name xs g gi w l s p i h -> gives p m c name l i h w.
Proof.
  intros HS (t & w' & E & G & Ad & Ka & It & Nt & V). exists t, w'. split; [exact E|]. split; [exact It|]. split; [exact V|].
  split; [apply (addsn_only m c), Ad|]. split; [eapply session_addsn; eauto|apply known_all_spec, Ka].
Qed.

Lemma christoffel_gives w : session w -> known w ->
  gives (calc_christoffel m) m c name [(name ++ " Christoffel")%string] [1; -1; -1]%Z (at3 (Gam n xs g gi)) w.
Proof. intros HS Ka. apply known_all_spec in Ka. eapply done_gives; [exact HS|]. apply christoffel_done; assumption. Qed.
Lemma riemann_gives w : session w -> known w ->
  gives (calc_riemann m) m c name [(name ++ " Christoffel"); (name ++ " Riemann")]%string [1; -1; -1; -1]%Z (at4 (Rie n xs g gi)) w.
Proof. intros HS Ka. apply known_all_spec in Ka. eapply done_gives; [exact HS|]. apply riemann_done; assumption. Qed.
Lemma ricci_gives w : session w -> known w ->
  gives (calc_ricci m) m c name [(name ++ " Christoffel"); (name ++ " Riemann"); (name ++ " Ricci Tensor")]%string [-1; -1]%Z (at2 (Ric n xs g gi)) w.
Proof. intros HS Ka. apply known_all_spec in Ka. eapply done_gives; [exact HS|]. apply ricci_done; assumption. Qed.
Lemma scalar_gives w : session w -> known w ->
  gives (calc_ricci_scalar m) m c name [(name ++ " Christoffel"); (name ++ " Riemann"); (name ++ " Ricci Tensor"); (name ++ " Ricci Scalar")]%string
    [] (fun _ => Sca n xs g gi) w.
Proof. intros HS Ka. apply known_all_spec in Ka. eapply done_gives; [exact HS|]. apply scalar_done; assumption. Qed.
Lemma einstein_gives w : session w -> known w ->
  gives (calc_einstein m) m c name [(name ++ " Christoffel"); (name ++ " Riemann"); (name ++ " Ricci Tensor"); (name ++ " Ricci Scalar"); (name ++ " Einstein")]%string
    [-1; -1]%Z (at2 (Ein n xs g gi)) w.
Proof. intros HS Ka. apply known_all_spec in Ka. eapply done_gives; [exact HS|]. apply einstein_done; assumption. Qed.

Lemma weyl_gives w : session w -> known w -> 3 <= n -> (forall j, In j (insts w) -> named w (name ++ " Ricci Tensor") j -> ~ used w j) ->
  exists t w', calc_weyl m w = (Ok t, w') /\ In t (insts w') /\ tensor_value w' n m c t [-1; -1; -1; -1]%Z (at4 (Wey n xs g gi)) /\ session w' /\ known w'.
Proof.
  intros HS Ka Hn Free. apply known_all_spec in Ka.
  destruct (existsb (fun j => match obj_of w j with Some o => String.eqb (o_name o) (name ++ " Weyl Tensor") | None => false end) (insts w)) eqn:Ex.
  - apply existsb_exists in Ex as (j & Hj & Ho). destruct (obj_of w j) as [o|] eqn:Eo; [|discriminate]. apply String.eqb_eq in Ho.
    unfold calc_weyl. edestruct (cached_known n m c name xs g gi w " Weyl Tensor") as (k & E & Ik & Nk); [exact HS|exact Hj|exists o; auto|].
    exists k, w. split; [exact E|]. split; [exact Ik|]. split; [|split; [exact HS|apply known_all_spec, Ka]].
    apply (Ka " Weyl Tensor"%string); [cbn; auto 10|exact Ik|exact Nk].
  - destruct (weyl_run n m c name xs g gi w HS Ka Hn) as (t & ric & r & w' & E & S' & K' & It & _ & V & _).
    + intros j Hj (o & Ho & En). rewrite (proj2 (existsb_exists _ _)) in Ex; [discriminate|]. exists j. split; [exact Hj|]. rewrite Ho. apply String.eqb_eq, En.
    + exact Free.
    + exists t, w'. split; [exact E|]. split; [exact It|]. split; [exact V|]. split; [exact S'|apply known_all_spec, K'].
Qed.

Lemma weyl_two_gives w : session w -> known w -> n = 2 -> (forall j, In j (insts w) -> ~ named w (name ++ " Weyl Tensor") j) ->
  exists w', calc_weyl m w = (Err EZeroDivision, w') /\ session w' /\ known w'.
Proof.
  intros HS Ka Hn Nw. apply known_all_spec in Ka. destruct (weyl_two n m c name xs g gi w HS Ka Hn Nw) as (w' & E & S' & K' & _).
  exists w'. split; [exact E|]. split; [exact S'|apply known_all_spec, K'].
Qed.

Lemma weyl_destroys w t : session w -> known w -> 3 <= n -> (forall j, In j (insts w) -> ~ named w (name ++ " Weyl Tensor") j) ->
  In t (insts w) -> named w (name ++ " Ricci Tensor") t -> (forall k, In k (insts w) -> named w (name ++ " Ricci Tensor") k -> k = t) -> ~ used w t ->
  exists u r w', calc_weyl m w = (Ok u, w') /\ obj_of w' t = None /\ ~ In t (insts w') /\
    ~ In r (insts w) /\ In r (insts w') /\ named w' "Result" r /\
    (forall j o, j <> t -> obj_of w j = Some o -> o_name o <> "TEMP"%string -> obj_of w' j = Some o /\ (In j (insts w) -> In j (insts w'))).
Proof.
  intros HS Ka Hn Nw It Nt Hu Hf. assert (I : integrity w) by apply HS. apply known_all_spec in Ka.
  destruct (weyl_run n m c name xs g gi w HS Ka Hn Nw) as (u & ric & r & w' & E & S' & K' & Iu & Nu & V & Or & Ir & Irr & Nr & Lr & Only & Fr & New).
  - intros j Hj Nj. rewrite (Hu j Hj Nj). exact Hf.
  - assert (t = ric) as <- by (apply Only; assumption). exists u, r, w'. split; [exact E|]. split; [exact Or|]. split; [exact Ir|].
    split. { intros Hr. apply (registered_lt w r) in Hr; [lia|]. apply (session_good w n m c name xs g gi HS). }
    split; [exact Irr|]. split; [exact Nr|]. intros j o Nj Ho Nn. destruct (Fr j o Nj Ho Nn) as (F1 & _ & F2). split; [exact F1|exact F2].
Qed.
End CurvRuns.

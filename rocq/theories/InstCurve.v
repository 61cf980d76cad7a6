(** Substitution for numbers in polynomial expressions, and a session with a geodesic equation.
    Definitions and laws of the instance only. *)
From Coq Require Import QArith String.
From Verif Require Import Alg Alg_P Arr Inst Ex WorldM SpecWorld ExWorld CurveM.
Import List.
Local Open Scope nat_scope.

(** e.subs({0: v}) changes e if it is 0, e.subs({1: v}) changes the summand 1 (SymPy, where the
    sum is a list of its summands). *)
Definition psubn (b : bool) (v e : pexp) : pexp :=
  if b then match find (fun t => mono_eqb (snd t) []) (norm e) with
            | Some (q, _) => if Qeq_bool q 1 then PAdd (PSub e (PC 1%Q)) v else e
            | None => e
            end
  else if pisz e then v else e.
#[export] Instance PolyNum : NumSubs PolyOps := {| ksubn := psubn : bool -> @K PolyOps -> @K PolyOps -> @K PolyOps |}.

#[export] Instance PolyNumLaws : NumSubsLaws PolyOps PolyNum.
Proof.
  constructor. intros [|] v e H; change (@ksubn PolyOps PolyNum) with psubn; unfold psubn.
  - destruct (find _ _) as [[q m]|]; [|reflexivity]. destruct (Qeq_bool q 1); [|reflexivity].
    intros R f. cbn. rewrite (H R f). cbn. assert (G := cring R). destruct G as [H1 H2 H3 _ _ _ _ H4 H5].
    rewrite H4, <- H3, (H2 (copp R _)), H5, H2, H1. reflexivity.
  - destruct (pisz e) eqn:E; [|reflexivity]. apply pisz_ok in E. rewrite E. exact H.
Qed.
#[export] Instance PolySelf : SelfLaws PolyOps.
Proof.
  constructor. intros s e R v. change (@ksub1 PolyOps) with psubs. rewrite psubs_val. apply peval_ext. intros u. cbn.
  destruct (String.eqb_spec s u) as [->|_]; reflexivity.
Qed.

(** Coordinates x, y (object 0) and a metric with Gamma^y_xx = 1 (object 1). *)
Definition ex_wave : @arr PolyOps := @mkArr PolyOps [2; 2] [PMul (pz 2) (pv "x"); pz 1; pz 1; pz 0].
Definition ex_time_w : @world PolyOps := run_all
  [OpCoordinates (ex_str "XY") (VSyms [2] ex_xs) (VTuple [1]%Z) (ex_str "x") [];
   OpMetric (ex_str "g") (VArr ex_wave) (VObj 0) (VTuple [-1; -1]%Z) (ex_str "g")] empty_world.

(** Model of /repo/src/PyOGRe/Utils.py.  Definitions only.
    Not modelled: str_symbols (16-37, display helper), the isinstance checks on array
    arguments and the conversion of Matrix to Array (the model takes arrays). *)
From Verif Require Export Arr.

Section Utils.
Context {A : AlgOps}.

(** Utils.py 40-65, zero_tensor.  [dim] and [rank] are Python integers. *)
Definition zero_tensor (dim rk : Z) : res arr :=
  if (rk =? 0)%Z then Ok (mkArr [] [k0])                                  (* 53-54 *)
  else if (dim <? 1)%Z then Err EValueError                               (* 57-58 *)
  else if (0 <? rk)%Z
       then Ok (mkArr (repeat (Z.to_nat dim) (Z.to_nat rk))
                      (repeat k0 (Z.to_nat dim ^ Z.to_nat rk)))           (* 60-64 *)
       else Err EValueError.                                              (* 65 *)

(** Utils.py 68-88, elements: recursion into the sub-arrays along the first axis.
    Iterating over an array of shape d :: sh' yields d consecutive blocks of the flat
    data.  The dictionary is returned as its list of items in insertion order. *)
Fixpoint elements_rec (sh : list nat) (d : list K) (indices : list nat)
  : list (list nat * K) :=
  match sh with
  | [] => [(indices, nth 0 d k0)]
  | m :: sh' =>
      flat_map (fun index =>
                  elements_rec sh' (firstn (prodn sh') (skipn (index * prodn sh') d))
                               (indices ++ [index]))
               (seq 0 m)
  end.

Definition elements (a : arr) : list (list nat * K) := elements_rec (shape a) (data a) [].

(** Utils.py 91-126, map_to_array.  [func] is the Python function with its extra
    arguments already applied. *)
Definition map_to_array (a : arr) (func : K -> K) : res arr :=
  do result <- zero_tensor (match shape a with [] => 0%Z | d :: _ => Z.of_nat d end)
                           (Z.of_nat (rank a));                           (* 110-113 *)
  let array_elements := elements a in                                     (* 116 *)
  if rank a =? 0 then
    match array_elements with
    | [(_, e)] => Ok (mkArr [] [func e])                                  (* 119-120 *)
    | _ => Err EKeyError
    end
  else rfold (fun r p => aset r (fst p) (func (snd p))) array_elements result. (* 122-124 *)

(** Utils.py 129-227, contract. *)
Definition bad_pair (a1 a2 : arr) (p : Z * Z) : bool :=                   (* 163-167 *)
  (fst p <? 0)%Z || (snd p <? 0)%Z
  || (Z.of_nat (rank a1) <=? fst p)%Z || (Z.of_nat (rank a2) <=? snd p)%Z.

Definition repeated (r : nat) (l : list Z) : bool :=                      (* 168-175 *)
  existsb (fun i => 1 <? count Z.eqb (Z.of_nat i) l) (seq 0 r).

(** The slice tuple for one assignment of the summed positions (203-210). *)
Definition slice_tuple (r : nat) (positions ks : list nat) : list (option nat) :=
  fold_left (fun s pk => set_nth (fst pk) (Some (snd pk)) s)
            (combine positions ks) (repeat None r).

Definition contract (a1 a2 : arr) (indices : list (Z * Z)) : res arr :=
  match indices with
  | [] => Ok (tprod a1 a2)                                                (* 159-160 *)
  | _ =>
    if existsb (bad_pair a1 a2) indices then Err EValueError else
    if repeated (rank a1) (map fst indices) then Err EValueError else
    if repeated (rank a2) (map snd indices) then Err EValueError else
    let all := shape a1 ++ shape a2 in
    let shp := firstn (length all - 2 * length indices) all in            (* 178 *)
    do result <- zero_tensor (match shp with [] => 0%Z | d :: _ => Z.of_nat d end)
                             (Z.of_nat (length shp));                     (* 181-184 *)
    let pos1 := map (fun p => Z.to_nat (fst p)) indices in
    let pos2 := map (fun p => Z.to_nat (snd p)) indices in
    do result <- rfold
      (fun r ks =>                                                        (* 213-220 *)
         do x <- aslice a1 (slice_tuple (rank a1) pos1 ks);
         do y <- aslice a2 (slice_tuple (rank a2) pos2 ks);
         aadd r (tprod x y))
      (tuples (hd 0 (shape a1)) (length indices)) result;                 (* 187-198 *)
    Ok (amap simp result)                                                 (* 222-227 *)
  end.

(** Utils.py 230-279, partial_contract.  [coordinates] is the list of coordinate symbols;
    the array of coordinates has rank 1.  Simplification: coordinates are symbols. *)
Definition add_axis0 (r : arr) (i : nat) (v : arr) : arr :=               (* 267-269 *)
  tab (shape r) (fun idx => match idx with
                            | j :: rest => if j =? i then kadd (aget r idx) (aget v rest)
                                           else aget r idx
                            | [] => aget r idx
                            end).

Definition partial_contract (coordinates : list string) (a : arr) (index : option Z)
  : res arr :=
  match index with
  | Some ix =>
    if (ix <? 0)%Z then Err EValueError else                              (* 248-249 *)
    if (1 <? ix)%Z || (Z.of_nat (rank a) <? ix)%Z then Err EValueError else (* 250-251 *)
    let all := length coordinates :: shape a in
    let shp := firstn (length all - 2) all in                             (* 254 *)
    do result <- zero_tensor (match shp with [] => 0%Z | d :: _ => Z.of_nat d end)
                             (Z.of_nat (length shp));                     (* 257-260 *)
    rfold (fun r ic =>                                                    (* 273-277 *)
             if rank a <=? Z.to_nat ix then Err EIndexError else
             do s <- aslice a (set_nth (Z.to_nat ix) (Some (fst ic)) (repeat None (rank a)));
             aadd r (amap (kdiff (snd ic)) s))
          (combine (seq 0 (length coordinates)) coordinates) result
  | None =>
    let shp := length coordinates :: shape a in
    do result <- zero_tensor (Z.of_nat (length coordinates)) (Z.of_nat (length shp));
    rfold (fun r ic =>                                                    (* 263-269 *)
             if shape_eqb (shape r) shp
             then Ok (add_axis0 r (fst ic) (amap (kdiff (snd ic)) a))
             else Err EValueError)
          (combine (seq 0 (length coordinates)) coordinates) result
  end.

End Utils.

(** * Ncon: model of tensornetwork/ncon_interface.py.

    One Gallina function per python function.  Exceptions are the value [Raise]; the one loop
    that is not structurally terminating takes fuel and returns [Fuel] when it runs out
    (shown impossible in NconProof.v).  Python iterates over sets in three places; the order is
    not specified by the language, so it is the argument [iter] (any function returning a
    permutation of its argument) and every theorem holds for all of them.

    Simplifications: labels are python ints or ASCII strings (the code also accepts floats);
    the parallel lists [tensors] and [network_structure], which are always popped and appended
    together, are one list of pairs; the jit cache and the unwrapping of [Tensor] objects
    (632-652, 671-682) are not modelled; array operations are those of Tensor.v. *)
From Coq Require Import ZArith String Ascii.
From Verif Require Import Prelude Algebra Tensor.
From Verif Require Export Res.
Set Implicit Arguments.
Unset Strict Implicit.
Open Scope list_scope.
Open Scope nat_scope.

Definition zmem (x : Z) (l : list Z) : bool := existsb (Z.eqb x) l.
Definition zindex := index_of Z.eq_dec.
Definition zcount := count_occ Z.eq_dec.

(** ** Input labels *)
Inductive label := LInt (z : Z) | LStr (s : string).
Definition label_dec (x y : label) : {x = y} + {x <> y}.
Proof. decide equality; [apply Z.eq_dec | apply string_dec]. Defined.
Definition lmem (x : label) (l : list label) : bool := if in_dec label_dec x l then true else false.

(** str.isalnum for ASCII strings (false for the empty string) *)
Definition alnum_char (c : ascii) : bool :=
  let n := nat_of_ascii c in
  (Nat.leb 48 n && Nat.leb n 57) || (Nat.leb 65 n && Nat.leb n 90) || (Nat.leb 97 n && Nat.leb n 122).
Fixpoint all_alnum (s : string) : bool :=
  match s with EmptyString => true | String c r => alnum_char c && all_alnum r end.
Definition isalnum (s : string) : bool :=
  match s with EmptyString => false | _ => all_alnum s end.

(** [label[0] == '-'] *)
Definition hyphen (s : string) : bool :=
  match s with EmptyString => false | String c _ => Ascii.eqb c "-"%char end.
(** [label[0]] raises IndexError on the empty string *)
Definition empty_str (l : label) : bool :=
  match l with LStr EmptyString => true | _ => false end.

(** a label occurring in an output position *)
Definition is_out (l : label) : bool :=
  match l with LInt z => (z <? 0)%Z | LStr s => hyphen s end.
Definition is_int (l : label) : bool := match l with LInt _ => true | LStr _ => false end.

(** python's order on ints and (ASCII) strings *)
Definition label_leb (x y : label) : bool :=
  match x, y with
  | LInt a, LInt b => (a <=? b)%Z
  | LStr a, LStr b => String.leb a b
  | LInt _, LStr _ => true
  | LStr _, LInt _ => false
  end.
Definition label_geb (x y : label) : bool := label_leb y x.

(** ncon_interface.py:28-66 _get_cont_out_labels *)
Definition get_cont_labels (flat : list label) : list label :=
  let u := nodup label_dec flat in
  sort label_leb (filter (fun l => is_int l && negb (is_out l)) u)
    ++ sort label_leb (filter (fun l => negb (is_int l) && negb (is_out l)) u).
Definition get_out_labels (flat : list label) : list label :=
  let u := nodup label_dec flat in
  sort label_geb (filter (fun l => is_int l && is_out l) u)
    ++ sort label_leb (filter (fun l => negb (is_int l) && is_out l) u).

(** ncon_interface.py:69-115 _canonicalize_network_structure: the dict [neg_mapping] *)
Definition neg_int_labels flat := sort label_leb (filter (fun l => is_int l && is_out l) (nodup label_dec flat)).
Definition pos_int_labels flat :=
  sort label_leb (filter (fun l => match l with LInt z => (0 <? z)%Z | _ => false end) (nodup label_dec flat)).
Definition neg_str_labels flat :=
  sort label_geb (filter (fun l => negb (is_int l) && is_out l) (nodup label_dec flat)).
Definition pos_str_labels flat :=
  sort label_leb (filter (fun l => negb (is_int l) && negb (is_out l)) (nodup label_dec flat)).
Definition zrange (a : Z) (n : nat) : list Z := map (fun i => (a + Z.of_nat i)%Z) (seq 0 n).
Definition mapping (flat : list label) : list (label * Z) :=
  let ns := neg_str_labels flat ++ neg_int_labels flat in
  let ps := pos_int_labels flat ++ pos_str_labels flat in
  combine ns (zrange (- Z.of_nat (List.length ns)) (List.length ns)) ++ combine ps (zrange 1 (List.length ps)).
Fixpoint lookup (m : list (label * Z)) (l : label) : option Z :=
  match m with
  | [] => None
  | (k, v) :: r => if label_dec l k then Some v else lookup r l
  end.
(** [mapping[l] for l in ls]; KeyError for an unmapped label *)
Fixpoint lookups (m : list (label * Z)) (ls : list label) : res (list Z) :=
  match ls with
  | [] => Ok []
  | l :: r => match lookup m l with
              | None => Raise
              | Some z => rbind (lookups m r) (fun zs => Ok (z :: zs))
              end
  end.
Fixpoint lookupss (m : list (label * Z)) (net : list (list label)) : res (list (list Z)) :=
  match net with
  | [] => Ok []
  | ls :: r => rbind (lookups m ls) (fun zs => rbind (lookupss m r) (fun zss => Ok (zs :: zss)))
  end.

(** ncon_interface.py:117-238 _check_network; false stands for any of its exceptions *)
Definition str_ok (l : label) : bool :=
  match l with
  | LInt _ => true
  | LStr s => if hyphen s then match s with String _ r => isalnum r | EmptyString => false end else isalnum s
  end.
Definition no_repeats (l : list label) : bool :=
  forallb (fun x => Nat.eqb (count_occ label_dec l x) 1) l.
Definition check_con (flat : list label) (con : list label) : bool :=
  forallb (fun o => negb (empty_str o)) con
  && forallb (fun o => negb (is_out o)) con
  && no_repeats con
  && Nat.eqb (List.length con) (List.length (get_cont_labels flat))
  && forallb (fun o => lmem o flat) con.
(** integer elements must satisfy [not o > 0], strings must be hyphenated *)
Definition out_sign (o : label) : bool :=
  match o with LInt z => negb (0 <? z)%Z | LStr s => hyphen s end.
Definition check_out (flat : list label) (out : list label) : bool :=
  forallb (fun o => negb (empty_str o)) out
  && forallb out_sign out
  && no_repeats out
  && Nat.eqb (List.length out) (List.length (get_out_labels flat))
  && forallb (fun o => lmem o flat) out.
(** the set of sizes of the axes carrying [l] *)
Definition dims_of (dims : list (list nat)) (net : list (list label)) (l : label) : list nat :=
  nodup Nat.eq_dec
    (map snd (filter (fun p => if label_dec (fst p) l then true else false)
                (flat_map (fun x => combine (fst x) (snd x)) (combine net dims)))).
Definition opt_check {A} (f : A -> bool) (o : option A) : bool :=
  match o with None => true | Some x => f x end.
Definition check_network (net : list (list label)) (dims : list (list nat))
           (con out : option (list label)) : bool :=
  let flat := List.concat net in
  Nat.eqb (List.length net) (List.length dims)
  && forallb (fun x => Nat.eqb (List.length (snd x)) (List.length (fst x))) (combine net dims)
  && forallb (fun l => negb (empty_str l)) flat
  && forallb str_ok flat
  && forallb (fun l => if label_dec l (LInt 0) then false else true) flat
  && opt_check (check_con flat) con
  && opt_check (check_out flat) out
  && forallb (fun l => Nat.leb (List.length (dims_of dims net l)) 1) (get_cont_labels flat).

Section Core.
  Context {R : csr}.
  (** order in which python iterates over a set *)
  Variable iter : list Z -> list Z.

  Definition factor := (tensor R * list Z)%type.
  Definition flat_of (net : list factor) : list Z := flat_map (fun x => snd x) net.

  (** every other element: [l[0:-1:2]] *)
  Fixpoint evens {A} (l : list A) : list A :=
    match l with x :: _ :: r => x :: evens r | _ => [] end.
  Definition positions (l : Z) (ls : list Z) : list nat :=
    filter (fun n => Z.eqb (nth n ls 0%Z) l) (seq 0 (List.length ls)).

  (** the numpy calls check their arguments *)
  Definition np_transpose (t : tensor R) (p : list nat) : res (tensor R) :=
    guard (is_permb (rank t) p) (Ok (transpose t p)).
  Definition np_reshape (t : tensor R) (s : list nat) : res (tensor R) :=
    guard (Nat.eqb (nprod s) (nprod (shape t))) (Ok (reshape t s)).

  (** ncon_interface.py:241-277 _partial_trace; returns tensor, labels and traced labels *)
  Definition partial_trace (x : factor) : res (factor * list Z) :=
    let (t, ls) := x in
    let tl := filter (fun l => Nat.eqb (zcount ls l) 2) ls in
    match tl with
    | [] => Ok (x, [])
    | _ =>
      let num_cont := List.length tl / 2 in
      let u := evens (sort Z.leb tl) in
      let contracted := map (fun l => nth 0 (positions l ls) 0) u ++ map (fun l => nth 1 (positions l ls) 0) u in
      let free := free_axes (List.length ls) contracted in
      let d := nprod (gather 0 (shape t) (firstn num_cont contracted)) in
      rbind (np_transpose t (free ++ contracted)) (fun t1 =>
      rbind (np_reshape t1 (gather 0 (shape t) free ++ [d; d])) (fun t2 =>
      Ok ((trace2 t2 (List.length free) (S (List.length free)), filter (fun l => negb (zmem l u)) ls), u)))
    end.

  (** np.matmul of two 3-index arrays: the first axis is broadcast *)
  Definition matmul3 (a b : tensor R) : res (tensor R) :=
    match shape a, shape b with
    | [b1; m; k], [b2; k'; n] =>
      guard (Nat.eqb k k' && (Nat.eqb b1 b2 || Nat.eqb b1 1 || Nat.eqb b2 1))
        (Ok (Tensor [if Nat.eqb b1 1 then b2 else b1; m; n]
               (fun ix =>
                  let i := nth 0 ix 0 in
                  nsum k (fun z => elt a [if Nat.eqb b1 1 then 0 else i; nth 1 ix 0; z]
                                   *! elt b [if Nat.eqb b2 1 then 0 else i; z; nth 2 ix 0]))))
    | _, _ => Raise
    end.

  (** ncon_interface.py:280-357 _batch_cont; returns the new factor and the contracted labels *)
  Definition batch_cont (x1 x2 : factor) (cb : list Z) : res (factor * list Z) :=
    let (t1, l1) := x1 in
    let (t2, l2) := x2 in
    let b1 := map (fun l => zindex l l1) cb in
    let b2 := map (fun l => zindex l l2) cb in
    let nb1 := filter (fun l => negb (zmem l cb)) (nodup Z.eq_dec l1) in
    let nb2 := filter (fun l => negb (zmem l cb)) (nodup Z.eq_dec l2) in
    let cc := iter (filter (fun l => zmem l nb2) nb1) in
    let c1 := map (fun l => zindex l l1) cc in
    let c2 := map (fun l => zindex l l2) cc in
    let fr (l : Z) := negb (zmem l cc) && negb (zmem l cb) in
    let f1 := filter (fun n => fr (nth n l1 0%Z)) (seq 0 (List.length l1)) in
    let f2 := filter (fun n => fr (nth n l2 0%Z)) (seq 0 (List.length l2)) in
    let s1 := shape t1 in
    let s2 := shape t2 in
    rbind (np_transpose t1 (b1 ++ f1 ++ c1)) (fun u1 =>
    rbind (np_reshape u1 [nprod (gather 0 s1 b1); nprod (gather 0 s1 f1); nprod (gather 0 s1 c1)]) (fun m1 =>
    rbind (np_transpose t2 (b2 ++ c2 ++ f2)) (fun u2 =>
    rbind (np_reshape u2 [nprod (gather 0 s2 b2); nprod (gather 0 s2 c2); nprod (gather 0 s2 f2)]) (fun m2 =>
    rbind (matmul3 m1 m2) (fun m =>
    rbind (np_reshape m (gather 0 s1 b1 ++ gather 0 s1 f1 ++ gather 0 s2 f2)) (fun r =>
    Ok ((r, gather 0%Z l1 b1 ++ gather 0%Z l1 f1 ++ gather 0%Z l2 f2), cc))))))).

  (** ncon_interface.py:360-364 label_intersection *)
  Definition label_intersection (l1 l2 : list Z) : list Z :=
    iter (filter (fun l => zmem l l2) (nodup Z.eq_dec l1)).

  (** np.sum(t, axis=axs) *)
  Definition sum_axes (t : tensor R) (axs : list nat) : tensor R :=
    let f := free_axes (rank t) axs in
    Tensor (gather 0 (shape t) f)
      (fun ix => lsum (idxs (gather 0 (shape t) axs)) (fun vs => elt t (unperm 0 (f ++ axs) (ix ++ vs)))).

  (** ncon_interface.py:398-404 partial trace of every tensor *)
  Definition trace_all (net : list factor) (con : list Z) : res (list factor * list Z) :=
    rbind (mapr partial_trace net) (fun xs =>
    Ok (map fst xs, filter (fun c => negb (zmem c (flat_map (fun x => snd x) xs))) con)).

  (** ncon_interface.py:406-425 sum over the positive labels occurring once *)
  Definition contractable (flat : list Z) : list Z :=
    filter (fun l => Nat.eqb (zcount flat l) 1 && (0 <? l)%Z) flat.
  Definition sum_one (cl : list Z) (x : factor) : res factor :=
    let (t, ls) := x in
    if existsb (fun l => zmem l cl) ls
    then guard (forallb (fun l => zmem l ls) cl)
           (Ok (sum_axes t (map (fun l => zindex l ls) cl), filter (fun l => negb (zmem l cl)) ls))
    else Ok x.
  Definition sum_all (net : list factor) (con : list Z) : res (list factor * list Z) :=
    let cl := contractable (flat_of net) in
    rbind (mapr (sum_one cl) net) (fun net' => Ok (net', filter (fun o => negb (zmem o cl)) con)).

  (** ncon_interface.py:429-435 batch labels and their counts (from the labels before the sum) *)
  Definition batch_of (flat : list Z) : list (Z * nat) :=
    flat_map (fun l => let c := zcount flat l in
                       if Nat.ltb 2 c || (Nat.eqb c 2 && (l <? 0)%Z) then [(l, c)] else [])
             (iter (nodup Z.eq_dec flat)).

  (** ncon_interface.py:463-480 one occurrence fewer of the labels [cb] *)
  Definition batch_dec (cb : list Z) (batch : list (Z * nat)) : list (Z * nat) :=
    flat_map (fun x => if zmem (fst x) cb
                       then let c := snd x - 1 in
                            if ((0 <? fst x)%Z && Nat.leb c 2) || ((fst x <? 0)%Z && Nat.ltb c 2)
                            then [] else [(fst x, c)]
                       else [x]) batch.

  Definition locs (c : Z) (net : list factor) : list nat :=
    filter (fun n => zmem c (snd (nth n net (Tensor [] (fun _ => r0), [])))) (seq 0 (List.length net)).
  Definition remove_at {A} (n : nat) (l : list A) : list A := firstn n l ++ skipn (S n) l.

  (** ncon_interface.py:487-500 contraction of two tensors without common batch labels *)
  Definition dot (x1 x2 : factor) (common : list Z) : res factor :=
    let (t1, l1) := x1 in
    let (t2, l2) := x2 in
    let c1 := map (fun l => zindex l l1) common in
    let c2 := map (fun l => zindex l l2) common in
    let ind := map (fun i => nindex i c1) (sort Nat.leb c1) in
    let a1 := gather 0 c1 ind in
    let a2 := gather 0 c2 ind in
    guard (if list_eq_dec Nat.eq_dec (gather 0 (shape t1) a1) (gather 0 (shape t2) a2) then true else false)
      (Ok (tensordot t1 t2 a1 a2,
           filter (fun l => negb (zmem l common)) l1 ++ filter (fun l => negb (zmem l common)) l2)).

  (** ncon_interface.py:437-500 the main loop *)
  Fixpoint loop (fuel : nat) (skips : nat) (net : list factor) (con : list Z) (batch : list (Z * nat))
    : res (list factor * list (Z * nat)) :=
    match con with
    | [] => Ok (net, batch)
    | c :: rest =>
      match fuel with
      | 0 => Fuel
      | S fuel =>
        if zmem c (map fst batch) then
          guard (negb (Nat.ltb (List.length (rest ++ [c])) (S skips)))
            (loop fuel (S skips) net (rest ++ [c]) batch)
        else
          match locs c net with
          | p0 :: p1 :: _ =>
            match nth_error net p0, nth_error net p1 with
            | Some x1, Some x2 =>
              let net' := remove_at p0 (remove_at p1 net) in
              let common := label_intersection (snd x1) (snd x2) in
              let cb := iter (filter (fun l => zmem l common) (map fst batch)) in
              match cb with
              | [] => rbind (dot x1 x2 common) (fun y =>
                        loop fuel skips (net' ++ [y]) (filter (fun o => negb (zmem o common)) con) batch)
              | _ => rbind (batch_cont x1 x2 cb) (fun y =>
                       loop fuel skips (net' ++ [fst y])
                            (filter (fun o => negb (zmem o (snd y))) con) (batch_dec cb batch))
              end
            | _, _ => Raise
            end
          | _ => Raise
          end
      end
    end.

  (** ncon_interface.py:502-518 outer products and remaining batch contractions; the list is
      held in reverse: its last element, then the others from the back *)
  Fixpoint finish (x2 : factor) (rest : list factor) (batch : list Z) : res factor :=
    match rest with
    | [] => Ok x2
    | x1 :: r =>
      let common := label_intersection (snd x1) (snd x2) in
      let cb := iter (filter (fun l => zmem l common) batch) in
      match cb with
      | [] => finish (outer (fst x1) (fst x2), snd x1 ++ snd x2) r batch
      | _ => rbind (batch_cont x1 x2 cb) (fun y => finish (fst y) r batch)
      end
    end.

  (** ncon_interface.py:520-525 the final permutation *)
  Definition final_order (x : factor) (out : list Z) : res (tensor R) :=
    let (t, ls) := x in
    if Nat.ltb 1 (List.length ls)
    then guard (forallb (fun l => zmem l ls) out) (np_transpose t (map (fun l => zindex l ls) out))
    else Ok t.

  (** ncon_interface.py:367-525 _jittable_ncon *)
  Definition jittable_ncon (net : list factor) (con out : list Z) : res (tensor R) :=
    rbind (trace_all net con) (fun p1 =>
    let (net1, con1) := p1 in
    rbind (sum_all net1 con1) (fun p2 =>
    let (net2, con2) := p2 in
    rbind (loop (List.length net2 + List.length con2 + 1) 0 net2 con2 (batch_of (flat_of net1))) (fun p3 =>
    let (net3, batch) := p3 in
    match rev net3 with
    | [] => Raise
    | x :: r => rbind (finish x r (map fst batch)) (fun y => final_order y out)
    end))).

  (** [con_order == []] and [out_order == []] count as None (635-638) *)
  Definition none_if_empty {A} (o : option (list A)) : option (list A) :=
    match o with Some [] => None | _ => o end.

  (** ncon_interface.py:528-688 ncon; [check] is the argument check_network.  With check_network
      switched off the code does not look at the number of tensors and labels until it uses
      them; the model raises straight away when they disagree. *)
  Definition ncon (check : bool) (tensors : list (tensor R)) (network_structure : list (list label))
             (con_order out_order : option (list label)) : res (tensor R) :=
    let con_order := none_if_empty con_order in
    let out_order := none_if_empty out_order in
    guard (negb check || check_network network_structure (map shape tensors) con_order out_order)
      (let flat := List.concat network_structure in
       guard (forallb (fun l => negb (empty_str l)) flat)
      (let m := mapping flat in
       rbind (lookupss m network_structure) (fun ns =>
       let u := nodup Z.eq_dec (List.concat ns) in
       rbind (match out_order with
              | None => Ok (sort Z.geb (filter (fun l => (l <? 0)%Z) u))
              | Some o => lookups m o
              end) (fun out =>
       rbind (match con_order with
              | None => Ok (sort Z.leb (filter (fun l => (0 <? l)%Z) u))
              | Some o => lookups m o
              end) (fun con =>
       guard (Nat.eqb (List.length tensors) (List.length ns)
              && forallb (fun x => Nat.eqb (rank (fst x)) (List.length (snd x))) (combine tensors ns))
         (jittable_ncon (combine tensors ns) con out)))))).
End Core.

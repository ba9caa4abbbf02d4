(** * PathSolve: the contraction-order solvers
    (contractors/custom_path_solvers/pathsolvers.py:19-430, nconinterface.py:21-200).

    The solvers compute with logarithms of dimensions.  The model takes them in any ordered group with an operation
    [lse] for the logarithm of a sum (10**a + 10**b, written a + log10(1 + 10**(b - a)) in the code); arithmetic is
    exact.  [PathSolveNum.v] has the instance of real logarithms and one of positive rational dimensions (for
    computed examples).  [np.argsort] (not stable, ties in any order) is a parameter. *)
From Coq Require Import ZArith NArith.
From Verif Require Import Prelude Res.
Set Implicit Arguments.
Unset Strict Implicit.

(** numbers the solvers compute with *)
Record lsf := Lsf {
  lcar :> Type;
  l0 : lcar;
  lplus : lcar -> lcar -> lcar;
  lopp : lcar -> lcar;
  lle : lcar -> lcar -> bool;
  lse : lcar -> lcar -> lcar;      (* logarithm of the sum *)
  ltol : lcar;                     (* tol = 1e-6 *)
  lten : lcar;                     (* 1 = log10(10) *)
  lkey : lcar -> Z;                (* ((1 / tol) * x).astype(int) *)
  lplus_0 : forall a, lplus a l0 = a;
  lplus_c : forall a b, lplus a b = lplus b a;
  lplus_a : forall a b c, lplus a (lplus b c) = lplus (lplus a b) c;
  lopp_r : forall a, lplus a (lopp a) = l0;
  lle_refl : forall a, lle a a = true;
  lle_tot : forall a b, lle a b = false -> lle b a = true;
  lle_trans : forall a b c, lle a b = true -> lle b c = true -> lle a c = true;
  lle_anti : forall a b, lle a b = true -> lle b a = true -> a = b;
  lle_plus : forall a b c, lle a b = true -> lle (lplus a c) (lplus b c) = true;
  lse_c : forall a b, lse a b = lse b a;
  lse_a : forall a b c, lse a (lse b c) = lse (lse a b) c;
  lse_mono : forall a b c, lle a b = true -> lle (lse a c) (lse b c) = true;
  lse_up : forall a b, lle a (lse a b) = true;
  ltol_pos : lle ltol l0 = false;
  lkey_mono : forall a b, lle a b = true -> (lkey a <= lkey b)%Z
}.
Arguments l0 {l}. Arguments lplus {l}. Arguments lopp {l}. Arguments lle {l}. Arguments lse {l}. Arguments ltol {l}. Arguments lten {l}. Arguments lkey {l}.

Section Solve.
  Context {L : lsf}.
  Variable argsort : list L -> list nat.
  Notation mat := (list (list L)).
  Definition lsub (a b : L) := lplus a (lopp b).
  Definition llt (a b : L) : bool := negb (lle b a).
  Definition lsum (l : list L) : L := fold_right lplus l0 l.
  Definition lmax2 (a b : L) : L := if lle a b then b else a.
  (** the maximum of a non-empty list *)
  Definition lmax (l : list L) : L := match l with [] => l0 | x :: r => fold_left lmax2 r x end.

  Definition get (m : mat) (x y : nat) : L := nth y (nth x m []) l0.
  Definition build (n : nat) (f : nat -> nat -> L) : mat := map (fun x => map (f x) (seq 0 n)) (seq 0 n).
  (** all entries in row-major order *)
  Definition flat (n : nat) (f : nat -> nat -> L) : list L := flat_map (fun x => map (f x) (seq 0 n)) (seq 0 n).

  (** the position of the first minimum, [np.argmin] *)
  Fixpoint argmin_from (k : nat) (best : L) (at_ : nat) (l : list L) : nat :=
    match l with
    | [] => at_
    | x :: r => if llt x best then argmin_from (S k) x k r else argmin_from (S k) best at_ r
    end.
  Definition argmin (l : list L) : nat := match l with [] => 0 | x :: r => argmin_from 1 x 0 r end.

  (** [np.sum(log_adj, axis=0)] *)
  Definition dim_of (adj : mat) (a : nat) : L := lsum (map (fun b => get adj b a) (seq 0 (length adj))).
  (** [comb_dims - log_adj] *)
  Definition single_cost (adj : mat) (a b : nat) : L := lsub (lplus (dim_of adj a) (dim_of adj b)) (get adj a b).

  (** position in the old matrix of position [x] after deleting row/column [i] *)
  Definition skip (i x : nat) : nat := if x <? i then x else S x.
  (** pathsolvers.py:75-79, 127-131, 317-321: the adjacency after contracting [j] with [i] *)
  Definition merge_adj (adj : mat) (j i : nat) : mat :=
    let m1 x y := if (x =? j) && (y =? j) then lsub (get adj j j) (lplus (get adj j i) (get adj j i)) else get adj x y in
    let m2 x y := if x =? j then lplus (m1 j y) (m1 i y) else m1 x y in
    let m3 x y := if y =? j then lplus (m2 x j) (m2 x i) else m2 x y in
    build (length adj - 1) (fun x y => m3 (skip i x) (skip i y)).

  (** 84-88, 136-140: the running cost *)
  Definition tally (c : option L) (single : L) : L := match c with None => single | Some c => lse c single end.

  (** 42-73: the pair chosen by [greedy_size_solve]; no pair raises ([max] of an empty array) *)
  Definition size_choice (adj : mat) : res (nat * nat) :=
    let n := length adj in
    let dims := map (dim_of adj) (seq 0 n) in
    let dm x := nth x dims l0 in
    let raw x y := lsub (lplus (dm x) (dm y)) (lplus (get adj x y) (get adj x y)) in
    let big := lmax (flat n raw) in
    let new_dims x y := if x =? y then lplus (raw x y) big else raw x y in
    let change x y := lkey (lsub (new_dims x y) (lmax2 (dm x) (dm y))) in
    let changes := flat_map (fun x => map (fun y => change x y) (seq 0 n)) (seq 0 n) in
    let least := match changes with [] => 0%Z | c :: r => fold_left Z.min r c end in
    let coords := flat_map (fun x => map (fun y => (x, y)) (filter (fun y => Z.eqb (change x y) least) (seq 0 n))) (seq 0 n) in
    let upper := filter (fun p => fst p <? snd p) coords in
    match upper with
    | [] => Raise
    | _ :: _ =>
        let costs := map (fun p => single_cost adj (fst p) (snd p)) upper in
        let conts := map (fun p => get adj (fst p) (snd p)) upper in
        let costs' :=
          if llt l0 (lmax conts)
          then map (fun q => if (lle (snd q) l0) && (lle l0 (snd q)) then lplus (fst q) (lplus (lmax costs) lten) else fst q) (combine costs conts)
          else costs in
        Ok (nth (argmin costs') upper (0, 0))
    end.
  (** 107-125: the pair (smaller, larger) chosen by [greedy_cost_solve], and the pair as recorded *)
  Definition cost_choice (adj : mat) : nat * nat :=
    let n := length adj in
    let sc := single_cost adj in
    let big := lmax (flat n sc) in
    let trimmed x y := if llt (get adj x y) ltol then lplus (sc x y) big else sc x y in
    let big' := lmax (flat n trimmed) in
    let pen x y := if x =? y then lplus (trimmed x y) big' else trimmed x y in
    let k := argmin (flat n pen) in
    (k / n, k mod n).

  (** 36-90 [greedy_size_solve]: [k] contractions *)
  Fixpoint greedy_size (k : nat) (adj : mat) (orders : list (nat * nat)) (c : option L) : res (list (nat * nat) * option L) :=
    match k with
    | 0 => Ok (orders, c)
    | S k' =>
        rbind (size_choice adj) (fun p =>
        greedy_size k' (merge_adj adj (fst p) (snd p)) (orders ++ [p]) (Some (tally c (single_cost adj (snd p) (fst p)))))
    end.
  Definition greedy_size_solve (adj : mat) := greedy_size (length adj - 1) adj [] None.
  (** 93-142 [greedy_cost_solve] *)
  Fixpoint greedy_cost (k : nat) (adj : mat) (orders : list (nat * nat)) (c : option L) : list (nat * nat) * option L :=
    match k with
    | 0 => (orders, c)
    | S k' =>
        let p := cost_choice adj in
        let i := Nat.max (fst p) (snd p) in
        let j := Nat.min (fst p) (snd p) in
        greedy_cost k' (merge_adj adj j i) (orders ++ [p]) (Some (tally c (single_cost adj i j)))
    end.
  Definition greedy_cost_solve (adj : mat) := greedy_cost (length adj - 1) adj [] None.

  (** one intermediate network of the full search: a slice of the arrays [log_adj], [costs], [groups], [orders] *)
  Record pnet := Pnet { p_adj : mat; p_cost : option L; p_groups : list N; p_orders : list (nat * nat) }.
  Definition ucost (s : pnet) : L := match p_cost s with Some c => c | None => l0 end.
  (** [dtype=np.uint64] *)
  Definition u64 (x : N) : N := N.modulo x (2 ^ 64).
  Definition merge_groups (g : list N) (j i : nat) : list N :=
    let g1 := map (fun x => if x =? j then u64 (nth j g 0%N + nth i g 0%N) else nth x g 0%N) (seq 0 (length g)) in
    map (fun x => nth (skip i x) g1 0%N) (seq 0 (length g - 1)).
  (** 283-331: the network after contracting [j] with [i], and whether the contraction is size-stable *)
  Definition advance (j i : nat) (s : pnet) : pnet :=
    Pnet (merge_adj (p_adj s) j i) (Some (tally (p_cost s) (single_cost (p_adj s) j i))) (merge_groups (p_groups s) j i) (p_orders s ++ [(j, i)]).
  Definition stable (j i : nat) (s : pnet) : bool :=
    let dj := dim_of (p_adj s) j in
    let di := dim_of (p_adj s) i in
    let a := get (p_adj s) j i in
    llt (lsub (lplus dj di) (lplus a a)) (lplus (lmax2 dj di) ltol).

  Definition cand := (pnet * bool)%type.
  Definition ccost (x : cand) : L := ucost (fst x).
  Definition ckey (x : cand) : list N := p_groups (fst x).
  (** [new_pos[np.argsort(costs)]] *)
  Definition sort_by_cost (l : list cand) : list cand := flat_map (fun k => match nth_error l k with Some x => [x] | None => [] end) (argsort (map ccost l)).
  (** [np.unique(groups, return_index=True, axis=1)]: columns in lexicographic order, the first of equal ones *)
  Fixpoint lexc (a b : list N) : comparison :=
    match a, b with
    | [], [] => Eq
    | [], _ => Lt
    | _, [] => Gt
    | x :: a', y :: b' => match N.compare x y with Eq => lexc a' b' | c => c end
    end.
  Fixpoint put_unique (x : cand) (l : list cand) : list cand :=
    match l with
    | [] => [x]
    | y :: r => match lexc (ckey x) (ckey y) with Eq => y :: r | Lt => x :: y :: r | Gt => y :: put_unique x r end
    end.
  Definition unique (l : list cand) : list cand := fold_left (fun acc x => put_unique x acc) l [].
  Definition dedupe (l : list cand) : list cand := unique (sort_by_cost l).
  (** ceil(0.2 m) and ceil(0.8 m), computed exactly *)
  Definition num_stable (m : nat) : nat := (m + 4) / 5.
  Definition num_cheapest (m : nat) : nat := (4 * m + 4) / 5.
  (** 382-427 [_reduce_nets]: the kept networks and the number trimmed *)
  Definition reduce_nets (l : list cand) (max_branch : option nat) : list cand * nat :=
    let kept := dedupe l in
    match max_branch with
    | Some m =>
        if m <? length kept then
          let sorted := sort_by_cost kept in
          let res := firstn (num_cheapest m) sorted ++ firstn (num_stable m) (filter snd (skipn (num_cheapest m) sorted)) in
          (res, length kept - length res)
        else (kept, 0)
    | None => (kept, 0)
    end.

  (** 255: the pairs tried, [i] from 1, [j < i] *)
  Definition pairs (n : nat) : list (nat * nat) := flat_map (fun i => map (fun j => (j, i)) (seq 0 i)) (seq 1 (n - 1)).
  (** the variables of the loop of 255-349 *)
  Record acc := Acc { a_final : list cand; a_trunc : nat; a_outer : bool; a_none : bool }.
  (** 258-349: one pair *)
  Definition try_pair (bound : L) (max_branch : option nat) (allow_outer : bool) (nets : list pnet) (st : acc) (p : nat * nat) : acc :=
    let '(j, i) := p in
    let usable := filter (fun s => allow_outer || llt l0 (get (p_adj s) j i)) nets in
    match usable with
    | [] => st
    | _ :: _ =>
        let cands := map (fun s => (advance j i s, stable j i s)) usable in
        match filter (fun x => llt (ccost x) bound) cands with
        | [] => Acc (a_final st) (a_trunc st) false (a_none st)
        | kept =>
            let final := a_final st ++ dedupe kept in
            let mid := match max_branch with None => 10000%N | Some m => N.of_nat m end in
            if N.ltb mid (N.of_nat (length final))
            then let r := reduce_nets final max_branch in Acc (fst r) (a_trunc st + snd r) false false
            else Acc final (a_trunc st) false false
        end
    end.
  (** 219-376 [_full_solve_single] with [allow_outer] given, before the last lines *)
  Definition try_all (bound : L) (max_branch : option nat) (allow_outer : bool) (n : nat) (nets : list pnet) : acc :=
    fold_left (try_pair bound max_branch allow_outer nets) (pairs n) (Acc [] 0 (negb allow_outer) true).
  Definition close_step (st : acc) : list pnet * nat :=
    if a_none st then ([], 0) else (map fst (fst (reduce_nets (a_final st) None)), a_trunc st).
  (** 351-376: only outer products left: again with outer products allowed *)
  Definition full_single (bound : L) (max_branch : option nat) (n : nat) (nets : list pnet) : list pnet * nat :=
    let st := try_all bound max_branch false n nets in
    if a_outer st then close_step (try_all bound max_branch true n nets) else close_step st.

  (** 186-201: the steps of the full search; [None]: no path within the bound *)
  Fixpoint full_loop (bound : L) (max_branch : option nat) (k n : nat) (nets : list pnet) (trunc : nat) : option (list pnet * nat) :=
    match k with
    | 0 => Some (nets, trunc)
    | S k' =>
        let r := full_single bound max_branch n nets in
        match fst r with
        | [] => None
        | _ :: _ => full_loop bound max_branch k' (n - 1) (fst r) (trunc + snd r)
        end
    end.
  Definition first_net (adj : mat) : pnet :=
    Pnet adj None (map (fun x => u64 (2 ^ N.of_nat x)) (seq 0 (length adj))) [].

  Record answer := Answer { an_order : list (nat * nat); an_cost : L; an_optimal : bool }.
  (** 145-216 [full_solve_complete] (the argument [cost_bound] is overwritten in 185).  For one tensor the costs of
      the greedy solvers are [None] and their comparison raises; more than one final network would raise. *)
  Definition full_solve_complete (adj : mat) (max_branch : option nat) : res answer :=
    rbind (greedy_size_solve adj) (fun g0 =>
    let g1 := greedy_cost_solve adj in
    match snd g0, snd g1 with
    | Some c0, Some c1 =>
        let '(order, c) := if llt c0 c1 then (fst g0, c0) else (fst g1, c1) in
        let found :=
          match max_branch with
          | Some 1 => None
          | _ => full_loop (lplus c ltol) max_branch (length adj - 1) (length adj) [first_net adj] 0
          end in
        match found with
        | None => Ok (Answer order c false)
        | Some ([s], t) => match p_cost s with Some c' => Ok (Answer (p_orders s) c' (t =? 0)) | None => Raise end
        | Some _ => Raise
        end
    | _, _ => Raise
    end).
End Solve.

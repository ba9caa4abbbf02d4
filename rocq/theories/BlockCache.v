(** * BlockCache: model of block_sparse/caching.py and of the cache in
    blocksparse_utils.py:_find_diagonal_sparse_blocks, _find_transposed_diagonal_sparse_blocks, _to_string.

    The cache is an association list from strings to results; strings are lists of character codes, bytes are numbers
    below 256.  Results are the block maps, the rows of the block charges and the block shapes: the charge type of the
    cached object is that of the call that filled the cache, and is left out. *)
From Coq Require Import ZArith Decimal.
From Verif Require Import Prelude Res Charge ChargeFacts ChargeInst BlockSparse.
Set Implicit Arguments.
Unset Strict Implicit.

(** ** str(bytes), python's repr of a bytes object *)
Definition hexdigit (d : nat) : nat := if d <? 10 then 48 + d else 87 + d.
Definition esc (q c : nat) : list nat :=
  if (c =? q) || (c =? 92) then [92; c]
  else if c =? 9 then [92; 116]
  else if c =? 10 then [92; 110]
  else if c =? 13 then [92; 114]
  else if (c <? 32) || (127 <=? c) then [92; 120; hexdigit (c / 16); hexdigit (c mod 16)]
  else [c].
Definition quote (b : list nat) : nat := if mem 39 b && negb (mem 34 b) then 34 else 39.
Definition repr (b : list nat) : list nat := 98 :: quote b :: flat_map (esc (quote b)) b ++ [quote b].

(** str(int) *)
Fixpoint udigits (d : uint) : list nat :=
  match d with
  | Nil => []
  | D0 d => 48 :: udigits d | D1 d => 49 :: udigits d | D2 d => 50 :: udigits d | D3 d => 51 :: udigits d
  | D4 d => 52 :: udigits d | D5 d => 53 :: udigits d | D6 d => 54 :: udigits d | D7 d => 55 :: udigits d
  | D8 d => 56 :: udigits d | D9 d => 57 :: udigits d
  end.
Definition str_int (n : nat) : list nat := udigits (Nat.to_uint n).

(** the bytes of an int16 array (little endian) and of a bool array *)
Definition int16_bytes (z : Z) : list nat := [Z.to_nat (z mod 256); Z.to_nat ((z / 256) mod 256)].
Definition bool_bytes (b : bool) : list nat := [if b then 1 else 0].

(** blocksparse_utils.py:636-657; the charges as a two-dimensional array of int16, one row per position of a leg *)
Definition to_string (charges : list (list (list Z))) (flows : list bool) (tr_partition : nat) (order : list nat) : list nat :=
  flat_map (fun c => repr (flat_map (flat_map int16_bytes) c)) charges ++
  repr (flat_map bool_bytes flows) ++ str_int tr_partition ++
  repr (flat_map (fun i => int16_bytes (Z.of_nat i)) order).

(** ** calls *)
(** what the block search returns *)
Definition found := (list (list nat) * list (list Z) * list (nat * nat))%type.
Record call := Call {
  k_ss : list sym;
  k_H : forallb ok_sym k_ss = true;
  k_cs : list (bc (sym_chg k_H));
  k_fs : list bool;
  k_p : nat;
  k_order : list nat
}.
Definition rows (ss : list sym) (H : forallb ok_sym ss = true) (c : bc (sym_chg H)) : list (list Z) :=
  map (fun q => proj1_sig q) (rep c).
Definition key (c : call) : list nat :=
  to_string (map (fun x => rows x) (k_cs c)) (k_fs c) (k_p c) (k_order c).

Section Cache.
  Variables lim blim junk : nat.
  (** the result computed from scratch *)
  Definition found_of (ss : list sym) (H : forallb ok_sym ss = true) (B : blocks (G := sym_chg H)) : found :=
    (bmaps B, rows (bqs B), bdims B).
  Definition compute (c : call) : res found :=
    rbind (tr_blocks lim blim junk (k_cs c) (k_fs c) (k_p c) (k_order c)) (fun B => Ok (found_of B)).

  (** caching.py:22-36: the status and the dictionary of the only Cacher *)
  Definition cache := list (list nat * found).
  Definition state := (bool * cache)%type.
  Fixpoint lookup (s : list nat) (c : cache) : option found :=
    match c with
    | [] => None
    | (t, v) :: r => if list_eq_dec Nat.eq_dec s t then Some v else lookup s r
    end.
  (** whether the result is stored: not in the early returns for trivial partitions of an untransposed tensor
      (365-381) and for tensors without blocks (394-400, 489-497) *)
  Definition stores (c : call) (v : found) : bool :=
    let '(maps, _, _) := v in
    negb (length maps =? 0) &&
    negb (leqb Nat.eq_dec (k_order c) (seq 0 (length (k_cs c))) && ((k_p c =? 0) || (k_p c =? length (k_cs c)))).
  (** blocksparse_utils.py:330-634.  A direct call of _find_diagonal_sparse_blocks has the same key and result as a call of
      _find_transposed_diagonal_sparse_blocks with the identity as order *)
  Definition find (c : call) (s : state) : res found * state :=
    let '(on, d) := s in
    match (if on then lookup (key c) d else None) with
    | Some v => (Ok v, s)
    | None =>
        match compute c with
        | Ok v => (Ok v, (on, if on && stores c v then (key c, v) :: d else d))
        | e => (e, s)
        end
    end.

  (** computations that use block data, as a tree: [Find] asks for block data and goes on with the answer; [Admin] is any
      use of enable_caching, disable_caching, set_caching_status, clear_cache: the new status and whether to clear may
      depend on the current status and contents (as in symmetric_backend.py:258-287) *)
  Inductive prog (A : Type) :=
  | Ret (a : A)
  | Find (c : call) (k : res found -> prog A)
  | Admin (f : state -> bool * bool) (k : prog A).
  Fixpoint run A (p : prog A) (s : state) : A * state :=
    match p with
    | Ret a => (a, s)
    | Find c k => let '(v, s') := find c s in run (k v) s'
    | Admin f k => let '(on, clear) := f s in run k (on, if clear then [] else snd s)
    end.
  (** the same computation without a cache *)
  Fixpoint run_uncached A (p : prog A) : A :=
    match p with
    | Ret a => a
    | Find c k => run_uncached (k (compute c))
    | Admin _ k => run_uncached k
    end.
End Cache.

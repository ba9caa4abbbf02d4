(** * BlockSpec: which entries of a tensor a symmetry allows, and where they are stored.

    Independent of the algorithms of BlockSparse.v: a leg is the list of the charges of its
    positions together with its flow, an entry is allowed when its signed charges add up to the
    identity, and allowed entries are stored in row-major order of their index tuples. *)
From Verif Require Import Prelude Algebra Tensor Res Charge.
Set Implicit Arguments.
Unset Strict Implicit.

(** a leg: its charges and its flow *)
Notation leg G := (list (qcar G) * bool)%type.

Section Spec.
  Context {G : chg}.

  Definition flip (l : leg G) : leg G := (fst l, negb (snd l)).
  (** charge of position [i] of a leg, dual for outgoing flow *)
  Definition leg_charge (l : leg G) (i : nat) : G :=
    if snd l then qinv (nth i (fst l) qid) else nth i (fst l) qid.
  (** total charge of an index tuple *)
  Fixpoint charge_of (ls : list (leg G)) (ix : list nat) : G :=
    match ls, ix with
    | l :: ls', i :: ix' => qop (leg_charge l i) (charge_of ls' ix')
    | _, _ => qid
    end.
  Definition ldims (ls : list (leg G)) : list nat := map (fun l => length (fst l)) ls.

  (** index tuples of total charge [q], row major; [allowed] are the stored entries *)
  Definition sector (ls : list (leg G)) (q : G) : list (list nat) :=
    filter (fun ix => if qdec (charge_of ls ix) q then true else false) (idxs (ldims ls)).
  Definition allowed (ls : list (leg G)) : list (list nat) := sector ls qid.
  (** where an entry is stored *)
  Definition pos (ls : list (leg G)) (ix : list nat) : nat := index_of (list_eq_dec Nat.eq_dec) ix (allowed ls).

  (** the positions of one block of a matricisation: the legs are permuted by [order], the first [p]
      are row legs; rows of charge [q], columns of the opposite charge, row major *)
  Definition row_legs (ls : list (leg G)) (order : list nat) (p : nat) := firstn p (gather ([], false) ls order).
  Definition col_legs (ls : list (leg G)) (order : list nat) (p : nat) := skipn p (gather ([], false) ls order).
  Definition block (ls : list (leg G)) (order : list nat) (p : nat) (q : G) : list nat :=
    flat_map (fun r => map (fun c => pos ls (unperm 0 order (r ++ c))) (sector (col_legs ls order p) (qinv q)))
      (sector (row_legs ls order p) q).
  Definition block_shape (ls : list (leg G)) (order : list nat) (p : nat) (q : G) : nat * nat :=
    (length (sector (row_legs ls order p) q), length (sector (col_legs ls order p) (qinv q))).

  (** legs of lists of charge objects and flows *)
  Definition legs (cs : list (bc G)) (fs : list bool) : list (leg G) := combine (map (fun c => rep c) cs) fs.
End Spec.

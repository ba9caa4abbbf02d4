(** * IndexSpec: what an index means *)
From Coq Require Import ZArith.
From Verif Require Import Prelude Res Charge ChargeFacts Tensor BlockSpec.
Set Implicit Arguments.
Unset Strict Implicit.

Section Spec.
  Context {G : chg}.
  (** one flow per elementary charge, at least one of them *)
  Definition index_ok (i : list (bc G) * list bool) : Prop :=
    fst i <> [] /\ length (fst i) = length (snd i) /\ forall c, In c (fst i) -> bc_ok c.
  (** the outer product, row major, of lists of charges: entry [(k1, ..., kn)] is the total of the entries [ki] *)
  Definition outer (ls : list (list G)) : list G :=
    map (charge_of (map (fun l => (l, false)) ls)) (idxs (map (fun l => length l) ls)).
  (** unique charges stored in order *)
  Definition sorted_rep (c : bc G) : Prop := uniques c = uniq (rep c).
End Spec.
(** rows with one entry per type *)
Definition rows_ok (ss : list sym) (rows : list (list Z)) : Prop := forall x, In x rows -> length x = length ss.

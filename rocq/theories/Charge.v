(** * Charge: model of tensornetwork/block_sparse/charge.py and of the integer helpers of
    tensornetwork/block_sparse/utils.py.

    Part 1 models the charge types of the library on int16 values ([U1Charge], [Z2Charge],
    [ZNCharge n]) and rows of them (product symmetries).  Part 2 is the interface every
    block-sparse algorithm uses: a set of charges with fusion, dual, identity, and the total
    order in which numpy happens to sort them.  Part 3 models [BaseCharge] objects, which store
    either a raw array of charges or (unique charges, labels).

    Simplifications: labels and lengths are natural numbers (numpy uses int16/int32/uint32);
    charges have dtype int16, the default of every constructor; reading [unique_charges] or
    [charge_labels] switches a raw object to the labelled representation in place
    (charge.py:80-94), which is not tracked: all theorems hold for both representations of
    every charge, in any mix. *)
From Coq Require Import ZArith.
From Verif Require Import Prelude Res.
Set Implicit Arguments.
Unset Strict Implicit.

(** ** Part 1: charge types *)

(** int16 wrap-around of numpy *)
Definition w16 (z : Z) : Z := ((z + 32768) mod 65536 - 32768)%Z.

(** charge.py:485, 506, 549-560 *)
Inductive sym := U1 | Z2 | ZN (n : Z).

(** [fuse] of one pair of values: charge.py:488-490, 524-527, 576-578 *)
Definition fuse1 (s : sym) (a b : Z) : Z :=
  match s with
  | U1 => w16 (a + b)
  | Z2 => Z.lxor a b
  | ZN n => (w16 (a + b) mod n)%Z
  end.
(** [dual_charges]: charge.py:492-494, 529-531, 580-582 *)
Definition dual1 (s : sym) (a : Z) : Z :=
  match s with
  | U1 => w16 (- a)
  | Z2 => a
  | ZN n => (w16 (n - a) mod n)%Z
  end.
(** [identity_charge]: charge.py:496-498, 533-535, 584-586 *)
Definition id1 (s : sym) : Z := 0.

(** the values accepted by the constructors: charge.py:509-522 (Z2), 562-574 (ZN), int16 (U1) *)
Definition ok1 (s : sym) (a : Z) : bool :=
  match s with
  | U1 => ((-32768 <=? a) && (a <=? 32767))%Z
  | Z2 => ((a =? 0) || (a =? 1))%Z
  | ZN n => ((0 <=? a) && (a <? n))%Z
  end.
(** charge types whose arithmetic fits into int16; [ZNCharge] itself only checks n >= 2
    (charge.py:557-558), see the refutation for larger n in R_Charge.v *)
Definition ok_sym (s : sym) : bool :=
  match s with ZN n => ((2 <=? n) && (n <=? 16384))%Z | _ => true end.

(** rows: one value per symmetry; [fuse_ndarray_charges] charge.py:604-619 on one pair of rows,
    [dual] 223-257 on one row, [identity_charges] 191-206 *)
Fixpoint fuse_row (ss : list sym) (a b : list Z) : list Z :=
  match ss, a, b with
  | s :: ss', x :: a', y :: b' => fuse1 s x y :: fuse_row ss' a' b'
  | _, _, _ => []
  end.
Fixpoint dual_row (ss : list sym) (a : list Z) : list Z :=
  match ss, a with
  | s :: ss', x :: a' => dual1 s x :: dual_row ss' a'
  | _, _ => []
  end.
Definition id_row (ss : list sym) : list Z := map id1 ss.
Fixpoint ok_row (ss : list sym) (a : list Z) : bool :=
  match ss, a with
  | [], [] => true
  | s :: ss', x :: a' => ok1 s x && ok_row ss' a'
  | _, _ => false
  end.

(** ** Part 2: the interface used by the block-sparse algorithms *)
Record chg := Chg {
  qcar :> Type;
  qop : qcar -> qcar -> qcar;
  qinv : qcar -> qcar;
  qid : qcar;
  qdec : forall x y : qcar, {x = y} + {x <> y};
  qleb : qcar -> qcar -> bool;
  qassoc : forall x y z, qop x (qop y z) = qop (qop x y) z;
  qcomm : forall x y, qop x y = qop y x;
  qidl : forall x, qop qid x = x;
  qinvl : forall x, qop (qinv x) x = qid;
  qtotal : forall x y, qleb x y = true \/ qleb y x = true;
  qtrans : forall x y z, qleb x y = true -> qleb y z = true -> qleb x z = true;
  qanti : forall x y, qleb x y = true -> qleb y x = true -> x = y
}.
Arguments qop {c}.
Arguments qinv {c}.
Arguments qid {c}.
Arguments qdec {c}.
Arguments qleb {c}.

Section Charges.
  Context {G : chg}.

  (** ** utils.py *)

  (** utils.py:240-302 [unique] on an array of charges: the sorted values *)
  Definition uniq (l : list G) : list G := sort qleb (nodup qdec l).
  (** its [return_inverse] and [return_counts] *)
  Definition inverse (l : list G) : list nat := map (fun x => index_of qdec x (uniq l)) l.
  Definition counts (l : list G) : list nat := map (count_occ qdec l) (uniq l).
  (** [np.unique] on labels *)
  Definition nuniq (l : list nat) : list nat := sort Nat.leb (nodup Nat.eq_dec l).

  (** utils.py:305-384 [intersect] (np.intersect1d): sorted common values, first positions in A and B *)
  Definition qmem (x : G) (l : list G) : bool := if in_dec qdec x l then true else false.
  Definition isect (a b : list G) : list G := filter (fun x => qmem x b) (uniq a).
  Definition locs_in (a vals : list G) : list nat := map (fun x => index_of qdec x a) vals.

  (** ** Part 3: BaseCharge objects, charge.py:21-482 *)
  (** [Raw l]: [_charges] is set; [Lab u ls]: [_unique_charges], [_charge_labels] are set *)
  Inductive bc := Raw (l : list G) | Lab (u : list G) (ls : list nat).

  (** charge.py:96-100 [charges] *)
  Definition rep (c : bc) : list G :=
    match c with Raw l => l | Lab u ls => gather qid u ls end.
  (** charge.py:80-86 [unique_charges] *)
  Definition uniques (c : bc) : list G :=
    match c with Raw l => uniq l | Lab u _ => u end.
  (** charge.py:88-94 [charge_labels] *)
  Definition labels (c : bc) : list nat :=
    match c with Raw l => inverse l | Lab _ ls => ls end.
  (** charge.py:121-125 [dim], 167-170 [__len__] *)
  Definition bdim (c : bc) : nat :=
    match c with Raw l => length l | Lab _ ls => length ls end.
  (** charge.py:127-132 *)
  Definition num_unique (c : bc) : nat := length (uniques c).

  (** charge.py:172-189 [__eq__]: matrix of comparisons with the target charges *)
  Definition beq (c : bc) (targets : list G) : res (list (list bool)) :=
    match targets with
    | [] => Raise
    | _ => Ok (map (fun x => map (fun t => if qdec x t then true else false) targets) (rep c))
    end.
  (** charge.py:191-206 [identity_charges] *)
  Definition identity_charges (n : nat) : bc := Raw (repeat qid n).

  (** charge.py:604-619 [fuse_ndarray_charges]: outer fusion, row major *)
  Definition fuse2 (a b : list G) : list G := flat_map (fun x => map (fun y => qop x y) b) a.
  (** charge.py:208-221 [__add__] *)
  Definition badd (c d : bc) : bc := Raw (fuse2 (rep c) (rep d)).
  (** charge.py:223-257 [dual], 269-273 [__mul__] *)
  Definition dual (c : bc) (take_dual : bool) : bc :=
    if take_dual then
      match c with
      | Raw l => Raw (map qinv l)
      | Lab u ls => Lab (map qinv u) ls
      end
    else c.

  (** charge.py:275-323 [intersect] with [return_indices=True] *)
  Definition bintersect (c d : bc) : bc * list nat * list nat :=
    let o := isect (rep c) (rep d) in
    (Lab o (seq 0 (length o)), locs_in (rep c) o, locs_in (rep d) o).

  (** charge.py:325-411 [unique] with [return_index=False]: charges, inverse, counts *)
  Definition bunique (c : bc) : bc * list nat * list nat :=
    match c with
    | Raw l => (Lab (uniq l) (seq 0 (length (uniq l))), inverse l, counts l)
    | Lab u ls => (Lab u (seq 0 (length u)), ls, map (count_occ Nat.eq_dec ls) (nuniq ls))
    end.
  (** the same with [return_index=True]: charges, index, inverse, counts *)
  Definition bunique_index (c : bc) : bc * list nat * list nat * list nat :=
    match c with
    | Raw l => (Lab (uniq l) (seq 0 (length (uniq l))), locs_in l (uniq l), inverse l, counts l)
    | Lab u ls =>
        let t := nuniq ls in
        (Lab (gather qid u t) (seq 0 (length t)),
         map (fun i => nindex i ls) t,
         map (fun i => nindex i t) ls,
         map (count_occ Nat.eq_dec ls) t)
    end.

  (** charge.py:413-454 [reduce] with [return_locations=True].  [map_to_reduced] (440-443) has
      [dim] entries although it is indexed by positions in the unique charges. *)
  Definition breduce (c : bc) (targets : list G) (stride : nat) : res (bc * list nat) :=
    let u := uniques c in
    let common := isect u targets in
    let l2u := locs_in u common in
    if forallb (fun j => j <? bdim c) l2u && forallb (fun j => j <? bdim c) (labels c) then
      let m2r := map (fun j => if mem j l2u then Some (nindex j l2u) else None) (seq 0 (bdim c)) in
      let reduced := gather None m2r (labels c) in
      Ok (Lab common (flat_map (fun o => match o with Some k => [k] | None => [] end) reduced),
          map (fun j => stride * j)
            (filter (fun j => match nth j reduced None with Some _ => true | None => false end)
               (seq 0 (length reduced))))
    else Raise.

  (** charge.py:456-478 [__getitem__] for a list of nonnegative positions *)
  Definition bgetitem (c : bc) (ns : list nat) : res bc :=
    if forallb (fun n => n <? bdim c) ns then
      Ok match c with
         | Raw l => Raw (gather qid l ns)
         | Lab u ls =>
             let l' := gather 0 ls ns in
             let ul := nuniq l' in
             Lab (gather qid u ul) (map (fun i => nindex i ul) l')
         end
    else Raise.

  (** charge.py:622-641 [fuse_charges] *)
  Definition fuse_charges (cs : list bc) (fs : list bool) : res bc :=
    if Nat.eqb (length cs) (length fs) then
      match cs, fs with
      | c :: cs', f :: fs' =>
          Ok (fold_left (fun acc cf => badd acc (dual (fst cf) (snd cf))) (combine cs' fs') (dual c f))
      | _, _ => Raise
      end
    else Raise.

  (** charge.py:644-673 [charge_equal] *)
  Definition leqb {A} (dec : forall x y : A, {x = y} + {x <> y}) (a b : list A) : bool :=
    if list_eq_dec dec a b then true else false.
  Definition charge_equal (c1 c2 : bc) : bool :=
    if Nat.eqb (bdim c1) (bdim c2) then
      match c1, c2 with
      | Lab u1 l1, Lab u2 l2 => leqb qdec u1 u2 && leqb Nat.eq_dec l1 l2
      | Raw l1, Raw l2 => leqb qdec l1 l2
      | _, _ => leqb qdec (rep c1) (rep c2)
      end
    else false.
End Charges.
Arguments bc : clear implicits.

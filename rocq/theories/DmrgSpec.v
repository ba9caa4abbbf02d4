(** * DmrgSpec: environments with a matrix product operator, independently of the code of Dmrg.v *)
From Coq Require Import List.
From Verif Require Import Prelude Res Algebra Tensor MpsSpec.
Import ListNotations.
Set Implicit Arguments.
Unset Strict Implicit.
Local Open Scope nat_scope.
Local Open Scope csr_scope.

Section Spec.
  Context {R : cjr}.
  (** the matrix element between the configurations [ta] (row) and [sg] (column) of the operator [ws] with left
      bond [w] and right bond [w'] *)
  Fixpoint wamp (ws : list (tensor R)) (w : nat) (ta sg : list nat) (w' : nat) : R :=
    match ws, ta, sg with
    | [], _, _ => if w =? w' then r1 else r0
    | W :: r, v :: ta, u :: sg => nsum (nth 1 (shape W) 0) (fun x => elt W [w; x; v; u] *! wamp r x ta sg w')
    | _ :: _, _, _ => r0
    end.
  (** neighbouring bonds of the operator agree; its rows and columns have the physical dimensions [ds] *)
  Fixpoint ochain (wl : nat) (ws : list (tensor R)) (ds : list nat) (wr : nat) : Prop :=
    match ws, ds with
    | [], [] => wl = wr
    | W :: r, d :: ds => exists k, shape W = [wl; k; d; d] /\ ochain k r ds wr
    | _, _ => False
    end.

  (** ket [ts], operator [ws], bra [us], between the three bonds [x] and [y] (operator, ket, bra) *)
  Definition triple (ts ws us : list (tensor R)) (x y : list nat) : R :=
    lsum (idxs (phys ts)) (fun sg => lsum (idxs (phys us)) (fun ta =>
      wamp ws (nth 0 x 0) ta sg (nth 0 y 0) *! (amp ts (nth 1 x 0) sg (nth 1 y 0) *! cj (amp us (nth 2 x 0) ta (nth 2 y 0))))).
  (** everything left of a bond contracted with the boundary [lb], everything right of it with [rb] *)
  Definition left_env (lb : tensor R) (ts ws : list (tensor R)) (y : list nat) : R :=
    lsum (idxs (shape lb)) (fun x => elt lb x *! triple ts ws ts x y).
  Definition right_env (rb : tensor R) (ts ws : list (tensor R)) (x : list nat) : R :=
    lsum (idxs (shape rb)) (fun y => triple ts ws ts x y *! elt rb y).

  (** [e] is the left environment of site [n], respectively the right environment *)
  Definition lgood (wl l : nat) (lb : tensor R) (ts ws : list (tensor R)) (n : nat) (e : tensor R) : Prop :=
    exists k wk, chain l (firstn n ts) k /\ ochain wl (firstn n ws) (phys (firstn n ts)) wk /\ shape e = [wk; k; k] /\
      forall z, valid z [wk; k; k] -> elt e z = left_env lb (firstn n ts) (firstn n ws) z.
  Definition rgood (wr r : nat) (rb : tensor R) (ts ws : list (tensor R)) (n : nat) (e : tensor R) : Prop :=
    exists k wk, chain k (skipn (n + 1) ts) r /\ ochain wk (skipn (n + 1) ws) (phys (skipn (n + 1) ts)) wr /\ shape e = [wk; k; k] /\
      forall z, valid z [wk; k; k] -> elt e z = right_env rb (skipn (n + 1) ts) (skipn (n + 1) ws) z.

  (** the state with the block [x] of [n] sites between the tensors [p] and [q] *)
  Definition block_amp (p : list (tensor R)) (x : tensor R) (q : list (tensor R)) (n : nat) (a : nat) (sg : list nat) (b : nat) : R :=
    nsum (hd 0 (shape x)) (fun c => nsum (last (shape x) 0) (fun e =>
      amp p a (firstn (length p) sg) c *! (elt x (c :: firstn n (skipn (length p) sg) ++ [e]) *!
      amp q e (skipn (length p + n) sg) b))).
  (** <phi| H |psi> between the boundaries *)
  Definition matrix_element (lb rb : tensor R) (ds : list nat) (ws : list (tensor R)) (phi psi : nat -> list nat -> nat -> R) : R :=
    lsum (idxs (shape lb)) (fun x => lsum (idxs (shape rb)) (fun y => elt lb x *! elt rb y *!
      lsum (idxs ds) (fun sg => lsum (idxs ds) (fun ta =>
        wamp ws (nth 0 x 0) ta sg (nth 0 y 0) *! (psi (nth 1 x 0) sg (nth 1 y 0) *! cj (phi (nth 2 x 0) ta (nth 2 y 0))))))).
  (** <phi|psi>, summed over the outer bonds *)
  Definition overlap (l r : nat) (ds : list nat) (phi psi : nat -> list nat -> nat -> R) : R :=
    nsum l (fun a => nsum r (fun b => lsum (idxs ds) (fun sg => cj (phi a sg b) *! psi a sg b))).
End Spec.

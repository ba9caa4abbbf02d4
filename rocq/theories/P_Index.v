(** * C64: indices of block-sparse tensors and products of symmetries *)
From Coq Require Import ZArith Lia.
From Verif Require Import Prelude Res Charge ChargeFacts ChargeInst Tensor BlockSpec BlockSparse IndexOps IndexSpec IndexFacts.
Set Implicit Arguments.
Unset Strict Implicit.

(** fusing indices: the dimension is the product, and the charges are the outer product, row major, of the charges of
    the indices *)
Theorem C64_fuse (G : chg) (l : list (@index G)) : l <> [] -> (forall i, In i l -> index_ok i) ->
  exists f c cs, fuse_indices l = Ok f /\ index_ok f /\ idim f = nprod (map (fun i => idim i) l) /\
    index_charges f = Ok c /\ Forall2 (fun i d => index_charges i = Ok d) l cs /\ rep c = outer (map (fun d => rep d) cs).
Proof. exact (@fuse_all G l). Qed.
Print Assumptions C64_fuse.

Theorem C64_fuse_none (G : chg) : fuse_indices (G := G) [] = Raise.
Proof. reflexivity. Qed.
Print Assumptions C64_fuse_none.

(** reversing the flows inverts every charge; twice is the identity *)
Theorem C64_flip (G : chg) (i : @index G) : index_ok i ->
  index_ok (flip_flow i) /\ idim (flip_flow i) = idim i /\ flip_flow (flip_flow i) = i /\
  exists c c', index_charges i = Ok c /\ index_charges (flip_flow i) = Ok c' /\ rep c' = map qinv (rep c).
Proof. exact (@flip_ok G i). Qed.
Print Assumptions C64_flip.

(** equal indices have the same elementary charges and flows; the converse for charges stored in order (see R_Charge.v
    for others) *)
Theorem C64_equal (G : chg) (i j : @index G) : index_ok i -> index_ok j ->
  (index_eq i j = true -> map (fun c => rep c) (fst i) = map (fun c => rep c) (fst j) /\ snd i = snd j) /\
  ((forall c, In c (fst i) \/ In c (fst j) -> sorted_rep c) ->
   map (fun c => rep c) (fst i) = map (fun c => rep c) (fst j) -> snd i = snd j -> index_eq i j = true).
Proof. intros Hi Hj. split; [apply index_eq_sound; assumption|apply index_eq_complete; assumption]. Qed.
Print Assumptions C64_equal.

(** an index equals its copy *)
Theorem C64_copy (G : chg) (i : @index G) : index_eq i i = true.
Proof. apply index_eq_parts. split; [|reflexivity]. induction (fst i); constructor; auto. Qed.
Print Assumptions C64_copy.

(** products of symmetries: [@] goes with fusion and duals, so every factor is conserved by itself *)
Theorem C64_product (a b c d ab cd : tch) : rows_ok (ctypes a) (crows a) -> rows_ok (ctypes a) (crows c) ->
  tmatmul a b = Ok ab -> tmatmul c d = Ok cd -> tmatmul (tadd a c) (tadd b d) = Ok (tadd ab cd).
Proof. exact (@matmul_add a b c d ab cd). Qed.
Print Assumptions C64_product.
Theorem C64_product_dual (a b ab : tch) f : rows_ok (ctypes a) (crows a) -> tmatmul a b = Ok ab ->
  tmatmul (tdual a f) (tdual b f) = Ok (tdual ab f).
Proof. exact (@matmul_dual a b ab f). Qed.
Print Assumptions C64_product_dual.

Definition ex_i : @index Z_chg := ([Raw [1; -2]%Z; Lab [5; 3]%Z [1; 0; 1]], [false; true]).
Definition ex_j : @index Z_chg := ([Raw [7; 0]%Z], [true]).
Example C64_ex : index_ok ex_i /\ index_ok ex_j /\
  rbind (fuse_indices [ex_i; ex_j]) (fun f => rbind (index_charges f) (fun c => Ok (idim f, rep c)))
    = Ok (12, [-9; -2; -11; -4; -9; -2; -12; -5; -14; -7; -12; -5]%Z) /\
  outer (G := Z_chg) [[-2; -4; -2; -5; -7; -5]%Z; [-7; 0]%Z] = [-9; -2; -11; -4; -9; -2; -12; -5; -14; -7; -12; -5]%Z /\
  index_eq ex_i (flip_flow (flip_flow ex_i)) = true /\ index_eq ex_i (flip_flow ex_i) = false.
Proof.
  split; [|split; [|vm_compute; auto]]; (split; [discriminate|]; split; [reflexivity|]); cbn [ex_i ex_j fst].
  - intros c [<-|[<-|[]]]; [exact I|]. split; [repeat constructor; cbn; intuition discriminate|].
    intros i. cbn. split; [intros [<-|[<-|[<-|[]]]]; lia | destruct i as [|[|i]]; auto; lia].
  - intros c [<-|[]]. exact I.
Qed.
Definition ex_u : tch := TCh [U1] [[1]; [-2]]%Z.
Definition ex_p : tch := TCh [Z2] [[1]; [0]]%Z.
Example C64_product_ex : rows_ok (ctypes ex_u) (crows ex_u) /\
  exists up, tmatmul ex_u ex_p = Ok up /\ crows (tadd up up) = [[2; 0]; [-1; 1]; [-1; 1]; [-4; 0]]%Z.
Proof. split; [intros x [<-|[<-|[]]]; reflexivity|]. eexists. split; vm_compute; reflexivity. Qed.

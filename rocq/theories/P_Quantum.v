(** * Property C39: the arithmetic of operators given by networks is linear algebra

    [oper s q ns] (QuantumSpec.v) says that [q] is an operator with the nodes [ns] of the heap [s], [entry s ns q i j g]
    is its entry in row [i] and column [j] (the ignored edges having the indices [g]), [made s s' C nC] that [C] is an
    operator of new nodes in the later heap [s'] in which all that existed in [s] is unchanged. *)
From Coq Require Import ZArith.
From Verif Require Import Prelude Algebra Tensor TensorFacts Einsum Graph GraphBase GraphConnect GraphContract GraphValue GraphQuery GraphQueryFacts GraphCopy GraphCopyFacts GraphDensity GraphExamples P_Copy Quantum QuantumSpec QuantumFacts QuantumNodes QuantumCopy QuantumOps QuantumTrace QuantumMake QuantumIdent QuantumExamples.
Set Implicit Arguments.
Unset Strict Implicit.

(** A @ B: the product of the matrices *)
Theorem C39_product (R : cjr) (iter : list nat -> list nat) (iter_perm : forall l, Permutation (iter l) l) (s : @st R) (A : quop) (B : quop) (nA : list nid) (nB : list nid) :
  wf s -> oper s A nA -> oper s B nB -> copyable s A -> copyable s B -> cols s A = rows s B ->
  exists s' C nC, matmul iter A B s = (s', Some C) /\ made s s' C nC /\ copyable s' C /\
    rows s' C = rows s A /\ cols s' C = cols s B /\ length (q_ign C) = length (q_ign A) + length (q_ign B) /\
    (forall i k g h, length i = length (q_out A) -> length g = length (q_ign A) -> length k = length (q_in B) -> length h = length (q_ign B) ->
      entry s' nC C i k (g ++ h) = lsum (idxs (cols s A)) (fun j => entry s nA A i j g *! entry s nB B j k h)).
Proof. exact (@matmul_ok R iter iter_perm s A B nA nB). Qed.
Print Assumptions C39_product.
(** A @ B raises, and nothing happens, when the spaces do not fit *)
Theorem C39_product_spaces (R : cjr) (iter : list nat -> list nat) (s : @st R) (A : quop) (B : quop) (nA : list nid) (nB : list nid) :
  wf s -> oper s A nA -> oper s B nB -> cols s A <> rows s B -> matmul iter A B s = (s, None).
Proof. exact (@matmul_reject R iter s A B nA nB). Qed.
Print Assumptions C39_product_spaces.
(** [ex_A]: the matrix of the network 2x3x2 - 3x2 with an ignored edge; its entries, and those of the product with the matrix at node 2 *)
Example C39_product_example : wf ex_q /\ (exists ns, oper ex_q ex_A ns) /\ copyable ex_q ex_A /\ cols ex_q ex_A = rows ex_q ex_A /\
  mat ex_q ex_A =
    Some ([2], [2], [2], [[(44%Z, (-82)%Z); (62%Z, (-106)%Z); (62%Z, (-106)%Z); (92%Z, (-136)%Z)]; [(152%Z, (-226)%Z); (170%Z, (-250)%Z); (242%Z, (-286)%Z); (272%Z, (-316)%Z)]]) /\
  mat_of (matmul idl ex_A (Qu [5] [6] [2] [] [])) ex_q =
    Some ([2], [2], [2], [[(572%Z, (-446)%Z); (794%Z, (-542)%Z); (1054%Z, (-422)%Z); (1432%Z, (-476)%Z)]; [(1904%Z, (-1022)%Z); (2126%Z, (-1118)%Z); (3322%Z, (-746)%Z); (3700%Z, (-800)%Z)]]) /\
  cols ex_q ex_A <> rows ex_q ex_B.
Proof. split; [apply ex_q_wf|]. split; [apply ex_A_oper|]. split; [intros n e ed a2 []|]. repeat split; try (vm_compute; reflexivity). vm_compute. discriminate. Qed.

(** the conjugate transpose *)
Theorem C39_adjoint (R : cjr) (iter : list nat -> list nat) (iter_perm : forall l, Permutation (iter l) l) (s : @st R) (q : quop) (ns : list nid) :
  wf s -> oper s q ns -> copyable s q ->
  exists s' q' Ns, adjoint iter q s = (s', Some q') /\ made s s' q' Ns /\ copyable s' q' /\
    rows s' q' = cols s q /\ cols s' q' = rows s q /\ map (edim s') (q_ign q') = map (edim s) (q_ign q) /\
    (forall i j g, length i = length (q_out q) -> length j = length (q_in q) -> length g = length (q_ign q) ->
      entry s' Ns q' j i g = cj (entry s ns q i j g)).
Proof. exact (@adjoint_ok R iter iter_perm s q ns). Qed.
Print Assumptions C39_adjoint.
Example C39_adjoint_example : wf ex_q /\ (exists ns, oper ex_q ex_A ns) /\ copyable ex_q ex_A /\
  mat_of (adjoint idl ex_A) ex_q =
    Some ([2], [2], [2], [[(44%Z, 82%Z); (62%Z, 106%Z); (152%Z, 226%Z); (170%Z, 250%Z)]; [(62%Z, 106%Z); (92%Z, 136%Z); (242%Z, 286%Z); (272%Z, 316%Z)]]).
Proof. split; [apply ex_q_wf|]. split; [apply ex_A_oper|]. split; [intros n e ed a2 []|]. vm_compute. reflexivity. Qed.

(** the Kronecker product *)
Theorem C39_tensor_product (R : cjr) (iter : list nat -> list nat) (iter_perm : forall l, Permutation (iter l) l) (s : @st R) (A : quop) (B : quop) (nA : list nid) (nB : list nid) :
  wf s -> oper s A nA -> oper s B nB -> copyable s A -> copyable s B ->
  exists s' C nC, tensor_product iter A B s = (s', Some C) /\ made s s' C nC /\ copyable s' C /\
    rows s' C = rows s A ++ rows s B /\ cols s' C = cols s A ++ cols s B /\ length (q_ign C) = length (q_ign A) + length (q_ign B) /\
    (forall i k j l g h, length i = length (q_out A) -> length j = length (q_in A) -> length g = length (q_ign A) ->
      length k = length (q_out B) -> length l = length (q_in B) -> length h = length (q_ign B) ->
      entry s' nC C (i ++ k) (j ++ l) (g ++ h) = entry s nA A i j g *! entry s nB B k l h).
Proof. exact (@tensor_product_ok R iter iter_perm s A B nA nB). Qed.
Print Assumptions C39_tensor_product.
Example C39_tensor_product_example : wf ex_q /\ (exists ns, oper ex_q ex_A ns) /\ (exists ns, oper ex_q ex_B ns) /\ copyable ex_q ex_A /\ copyable ex_q ex_B /\
  option_map (fun x => (fst (fst (fst x)), snd (fst (fst x)), snd (fst x), length (snd x), nth 7 (nth 5 (snd x) []) (0, 0)%Z)) (mat_of (tensor_product idl ex_A ex_B) ex_q) = Some ([2; 2; 3], [2; 2; 3], [2], 12, ((-5980)%Z, (-26260)%Z)).
Proof. split; [apply ex_q_wf|]. split; [apply ex_A_oper|]. split; [apply ex_B_oper|]. split; [intros n e ed a2 []|]. split; [intros n e ed a2 []|]. vm_compute. reflexivity. Qed.

(** the partial trace over the subsystems [ts]; [forward] excludes pairs of edges of one CopyNode that run from a later axis
    to an earlier one *)
Theorem C39_partial_trace (R : cjr) (iter : list nat -> list nat) (iter_perm : forall l, Permutation (iter l) l) (s : @st R) (q : quop) (ns : list nid) (ts : list nat) :
  wf s -> oper s q ns -> copyable s q -> NoDup ts ->
  (forall k, In k ts -> k < length (q_out q) /\ k < length (q_in q)) -> pick ts (rows s q) = pick ts (cols s q) ->
  exists s' C nC, partial_trace iter q ts s = (s', Some C) /\ made s s' C nC /\ (forward s q ts -> copyable s' C) /\
    rows s' C = drop_at ts (rows s q) /\ cols s' C = drop_at ts (cols s q) /\ length (q_ign C) = length (q_ign q) /\
    (forall I J g, length I = length (q_out q) -> length J = length (q_in q) -> length g = length (q_ign q) ->
      entry s' nC C (drop_at ts I) (drop_at ts J) g =
      lsum (idxs (pick ts (rows s q))) (fun vs => entry s ns q (put_at ts vs I) (put_at ts vs J) g)).
Proof. exact (@partial_trace_ok R iter iter_perm s q ns ts). Qed.
Print Assumptions C39_partial_trace.
(** an index out of range, or different dimensions *)
Theorem C39_partial_trace_spaces (R : cjr) (iter : list nat -> list nat) (s : @st R) (q : quop) (ns : list nid) (ts : list nat) :
  wf s -> oper s q ns ->
  (exists k, In k ts /\ (length (q_out q) <= k \/ length (q_in q) <= k)) \/ pick ts (rows s q) <> pick ts (cols s q) ->
  partial_trace iter q ts s = (s, None).
Proof. exact (@partial_trace_reject R iter s q ns ts). Qed.
Print Assumptions C39_partial_trace_spaces.
(** the trace *)
Theorem C39_trace (R : cjr) (iter : list nat -> list nat) (iter_perm : forall l, Permutation (iter l) l) (s : @st R) (q : quop) (ns : list nid) :
  wf s -> oper s q ns -> copyable s q -> rows s q = cols s q ->
  exists s' C nC, trace iter q s = (s', Some C) /\ made s s' C nC /\ q_out C = [] /\ q_in C = [] /\ length (q_ign C) = length (q_ign q) /\
    (forward s q (seq 0 (length (q_in q))) -> copyable s' C) /\
    (forall g, length g = length (q_ign q) -> entry s' nC C [] [] g = lsum (idxs (rows s q)) (fun i => entry s ns q i i g)).
Proof. exact (@trace_ok R iter iter_perm s q ns). Qed.
Print Assumptions C39_trace.
(** [ex_B]: tensor product of a 2x2 and a 3x3 matrix; both partial traces *)
Example C39_partial_trace_example : wf ex_q /\ (exists ns, oper ex_q ex_B ns) /\ copyable ex_q ex_B /\ NoDup [1] /\ pick [1] (rows ex_q ex_B) = pick [1] (cols ex_q ex_B) /\ forward ex_q ex_B [1] /\
  mat_of (partial_trace idl ex_B [0]) ex_q =
    Some ([3], [3], [], [[((-31)%Z, (-27)%Z); ((-4)%Z, (-58)%Z); (23%Z, (-89)%Z)]; [(50%Z, (-120)%Z); (77%Z, (-151)%Z); (104%Z, (-182)%Z)]; [(131%Z, (-213)%Z); (158%Z, (-244)%Z); (185%Z, (-275)%Z)]]) /\
  mat_of (partial_trace idl ex_B [1]) ex_q =
    Some ([2], [2], [], [[((-69)%Z, (-123)%Z); (54%Z, (-192)%Z)]; [(177%Z, (-261)%Z); (300%Z, (-330)%Z)]]) /\
  mat_of (trace idl ex_A) ex_q =
    Some ([], [], [2], [[(286%Z, (-368)%Z); (334%Z, (-422)%Z)]]).
Proof.
  split; [apply ex_q_wf|]. split; [apply ex_B_oper|]. split; [intros n e ed a2 []|]. split; [repeat constructor; intros []|]. split; [vm_compute; reflexivity|].
  split; [intros k _ n i j []|]. vm_compute. auto.
Qed.

(** multiples by scalar operators on either side, and by tensors without axes *)
Theorem C39_scalar_multiple (R : cjr) (iter : list nat -> list nat) (iter_perm : forall l, Permutation (iter l) l) (s : @st R) (A : quop) (B : quop) (nA : list nid) (nB : list nid) :
  wf s -> oper s A nA -> oper s B nB -> copyable s A -> copyable s B -> q_out B = [] -> q_in B = [] ->
  exists s' C nC, mul iter A B s = (s', Some C) /\ made s s' C nC /\ copyable s' C /\ rows s' C = rows s A /\ cols s' C = cols s A /\
    length (q_ign C) = length (q_ign A) + length (q_ign B) /\
    (forall i j g h, length i = length (q_out A) -> length j = length (q_in A) -> length g = length (q_ign A) -> length h = length (q_ign B) ->
      entry s' nC C i j (g ++ h) = entry s nA A i j g *! entry s nB B [] [] h).
Proof. exact (@mul_ok R iter iter_perm s A B nA nB). Qed.
Print Assumptions C39_scalar_multiple.
Theorem C39_scalar_multiple_left (R : cjr) (iter : list nat -> list nat) (iter_perm : forall l, Permutation (iter l) l) (s : @st R) (A : quop) (B : quop) (nA : list nid) (nB : list nid) :
  wf s -> oper s A nA -> oper s B nB -> copyable s A -> copyable s B -> q_out A = [] -> q_in A = [] ->
  exists s' C nC, mul iter A B s = (s', Some C) /\ made s s' C nC /\ copyable s' C /\ rows s' C = rows s B /\ cols s' C = cols s B /\
    length (q_ign C) = length (q_ign A) + length (q_ign B) /\
    (forall i j g h, length i = length (q_out B) -> length j = length (q_in B) -> length g = length (q_ign A) -> length h = length (q_ign B) ->
      entry s' nC C i j (g ++ h) = entry s nA A [] [] g *! entry s nB B i j h).
Proof. exact (@mul_left_ok R iter iter_perm s A B nA nB). Qed.
Print Assumptions C39_scalar_multiple_left.
Theorem C39_scalar_multiple_tensor (R : cjr) (iter : list nat -> list nat) (iter_perm : forall l, Permutation (iter l) l) (s : @st R) (A : quop) (nA : list nid) (t : tensor R) :
  wf s -> oper s A nA -> copyable s A -> shape t = [] ->
  exists s' C nC, mul_tensor iter A t s = (s', Some C) /\ made s s' C nC /\ copyable s' C /\ rows s' C = rows s A /\ cols s' C = cols s A /\ length (q_ign C) = length (q_ign A) /\
    (forall i j g, length i = length (q_out A) -> length j = length (q_in A) -> length g = length (q_ign A) ->
      entry s' nC C i j g = entry s nA A i j g *! elt t []).
Proof. exact (@mul_tensor_ok R iter iter_perm s A nA t). Qed.
Print Assumptions C39_scalar_multiple_tensor.
(** neither factor is a scalar *)
Theorem C39_multiple_of_operators (R : cjr) (iter : list nat -> list nat) (s : @st R) (A : quop) (B : quop) :
  q_out A ++ q_in A <> [] -> q_out B ++ q_in B <> [] -> mul iter A B s = (s, None).
Proof. exact (@mul_reject R iter s A B). Qed.
Print Assumptions C39_multiple_of_operators.
(** the tensor has axes *)
Theorem C39_multiple_by_array (R : cjr) (iter : list nat -> list nat) (iter_perm : forall l, Permutation (iter l) l) (s : @st R) (A : quop) (nA : list nid) (t : tensor R) :
  wf s -> oper s A nA -> shape t <> [] -> exists s', mul_tensor iter A t s = (s', None) /\ kept s s'.
Proof. exact (@mul_tensor_reject R iter iter_perm s A nA t). Qed.
Print Assumptions C39_multiple_by_array.
Example C39_scalar_multiple_example : wf ex_q /\ (exists ns, oper ex_q ex_A ns) /\ copyable ex_q ex_A /\
  mat_of (mul_tensor idl ex_A (gt 3 [])) ex_q =
    Some ([2], [2], [2], [[(50%Z, (-290)%Z); (80%Z, (-380)%Z); (80%Z, (-380)%Z); (140%Z, (-500)%Z)]; [(230%Z, (-830)%Z); (260%Z, (-920)%Z); (440%Z, (-1100)%Z); (500%Z, (-1220)%Z)]]) /\
  mat_of (bind (trace idl ex_A) (fun c => mul idl c ex_A)) ex_q =
    Some ([2], [2], [2; 2], [[((-17592)%Z, (-39644)%Z); ((-21276)%Z, (-53132)%Z); ((-19908)%Z, (-45956)%Z); ((-24024)%Z, (-61568)%Z); ((-21276)%Z, (-53132)%Z); ((-23736)%Z, (-72752)%Z); ((-24024)%Z, (-61568)%Z); ((-26664)%Z, (-84248)%Z)]; [((-39696)%Z, (-120572)%Z); ((-43380)%Z, (-134060)%Z); ((-44604)%Z, (-139628)%Z); ((-48720)%Z, (-155240)%Z); ((-36036)%Z, (-170852)%Z); ((-38496)%Z, (-190472)%Z); ((-39864)%Z, (-197648)%Z); ((-42504)%Z, (-220328)%Z)]]) /\
  snd (mul_tensor idl ex_A (gt 1 [2]) ex_q) = None /\ snd (mul idl ex_A ex_B ex_q) = None.
Proof. split; [apply ex_q_wf|]. split; [apply ex_A_oper|]. split; [intros n e ed a2 []|]. vm_compute. auto. Qed.

(** identity(space), a CopyNode for every subsystem *)
Theorem C39_identity (R : cjr) (iter : list nat -> list nat) (iter_perm : forall l, Permutation (iter l) l) (s : @st R) (space : list nat) :
  wf s -> space <> [] ->
  exists s' C nC, identity iter space s = (s', Some C) /\ made s s' C nC /\ copyable s' C /\ q_ign C = [] /\ rows s' C = space /\ cols s' C = space /\
    forward s' C (seq 0 (length space)) /\
    (forall i j, valid i space -> valid j space -> entry s' nC C i j [] = if list_eq_dec Nat.eq_dec i j then r1 else r0).
Proof. exact (@identity_ok R iter iter_perm s space). Qed.
Print Assumptions C39_identity.
Example C39_identity_example : wf ex_q /\ [2; 3] <> [] /\
  mat_of (identity idl [2; 3]) ex_q =
    Some ([2; 3], [2; 3], [], [[(1%Z, 0%Z); (0%Z, 0%Z); (0%Z, 0%Z); (0%Z, 0%Z); (0%Z, 0%Z); (0%Z, 0%Z)]; [(0%Z, 0%Z); (1%Z, 0%Z); (0%Z, 0%Z); (0%Z, 0%Z); (0%Z, 0%Z); (0%Z, 0%Z)]; [(0%Z, 0%Z); (0%Z, 0%Z); (1%Z, 0%Z); (0%Z, 0%Z); (0%Z, 0%Z); (0%Z, 0%Z)]; [(0%Z, 0%Z); (0%Z, 0%Z); (0%Z, 0%Z); (1%Z, 0%Z); (0%Z, 0%Z); (0%Z, 0%Z)]; [(0%Z, 0%Z); (0%Z, 0%Z); (0%Z, 0%Z); (0%Z, 0%Z); (1%Z, 0%Z); (0%Z, 0%Z)]; [(0%Z, 0%Z); (0%Z, 0%Z); (0%Z, 0%Z); (0%Z, 0%Z); (0%Z, 0%Z); (1%Z, 0%Z)]]) /\
  mat_of (bind (identity idl [2; 3]) (fun i => bind (matmul idl i ex_B) (fun p => trace idl p))) ex_q =
    Some ([], [], [], [[(231%Z, (-453)%Z)]]).
Proof. split; [apply ex_q_wf|]. split; [discriminate|]. vm_compute. auto. Qed.

(** operators, vectors and adjoint vectors given by one tensor *)
Theorem C39_from_tensor (R : cjr) (iter : list nat -> list nat) (iter_perm : forall l, Permutation (iter l) l) (s : @st R) (t : tensor R) (out_axes : list nat) (in_axes : list nat) :
  wf s -> Permutation (out_axes ++ in_axes) (seq 0 (rank t)) ->
  exists s' n C, from_tensor iter t out_axes in_axes s = (s', Some C) /\ made s s' C [n] /\ copyable s' C /\ q_ign C = [] /\
    rows s' C = pick out_axes (shape t) /\ cols s' C = pick in_axes (shape t) /\
    (forall ix, length ix = rank t -> entry s' [n] C (pick out_axes ix) (pick in_axes ix) [] = elt t ix).
Proof. exact (@from_tensor_ok R iter iter_perm s t out_axes in_axes). Qed.
Print Assumptions C39_from_tensor.
Theorem C39_vector_from_tensor (R : cjr) (iter : list nat -> list nat) (iter_perm : forall l, Permutation (iter l) l) (s : @st R) (t : tensor R) (axes : list nat) :
  wf s -> rank t <> 0 -> Permutation axes (seq 0 (rank t)) ->
  exists s' n C, vector_from_tensor iter t axes s = (s', Some C) /\ made s s' C [n] /\ copyable s' C /\ q_ign C = [] /\ q_in C = [] /\
    rows s' C = pick axes (shape t) /\ (forall ix, length ix = rank t -> entry s' [n] C (pick axes ix) [] [] = elt t ix).
Proof. exact (@vector_from_tensor_ok R iter iter_perm s t axes). Qed.
Print Assumptions C39_vector_from_tensor.
Theorem C39_adjoint_vector_from_tensor (R : cjr) (iter : list nat -> list nat) (iter_perm : forall l, Permutation (iter l) l) (s : @st R) (t : tensor R) (axes : list nat) :
  wf s -> rank t <> 0 -> Permutation axes (seq 0 (rank t)) ->
  exists s' n C, adjoint_from_tensor iter t axes s = (s', Some C) /\ made s s' C [n] /\ copyable s' C /\ q_ign C = [] /\ q_out C = [] /\
    cols s' C = pick axes (shape t) /\ (forall ix, length ix = rank t -> entry s' [n] C [] (pick axes ix) [] = elt t ix).
Proof. exact (@adjoint_from_tensor_ok R iter iter_perm s t axes). Qed.
Print Assumptions C39_adjoint_vector_from_tensor.
Example C39_from_tensor_example : wf ex_q /\ Permutation ([2; 0] ++ [1]) (seq 0 (rank (gt 1 [2; 2; 3]))) /\
  mat_of (from_tensor idl (gt 1 [2; 2; 3]) [2; 0] [1]) ex_q =
    Some ([3; 2], [2], [], [[(1%Z, (-1)%Z); (4%Z, 2%Z)]; [(7%Z, 5%Z); (10%Z, 8%Z)]; [(2%Z, 0%Z); (5%Z, 3%Z)]; [(8%Z, 6%Z); (11%Z, 9%Z)]; [(3%Z, 1%Z); (6%Z, 4%Z)]; [(9%Z, 7%Z); (12%Z, 10%Z)]]).
Proof. split; [apply ex_q_wf|]. split; [apply (NoDup_Permutation); [repeat constructor; cbn; intuition lia|apply seq_NoDup|cbn; tauto]|]. vm_compute. reflexivity. Qed.

(** norm: the trace of the adjoint times the operator *)
Theorem C39_norm (R : cjr) (iter : list nat -> list nat) (iter_perm : forall l, Permutation (iter l) l) (s : @st R) (q : quop) (ns : list nid) :
  wf s -> oper s q ns -> copyable s q ->
  exists s' C nC, norm iter q s = (s', Some C) /\ made s s' C nC /\ q_out C = [] /\ q_in C = [] /\ length (q_ign C) = length (q_ign q) + length (q_ign q) /\
    (forall g h, length g = length (q_ign q) -> length h = length (q_ign q) ->
      entry s' nC C [] [] (g ++ h) = lsum (idxs (cols s q)) (fun j => lsum (idxs (rows s q)) (fun i => cj (entry s ns q i j g) *! entry s ns q i j h))).
Proof. exact (@norm_ok R iter iter_perm s q ns). Qed.
Print Assumptions C39_norm.
(** projector and reduced density of a vector (columns [cols s q] = [] give the usual formulas) *)
Theorem C39_projector (R : cjr) (iter : list nat -> list nat) (iter_perm : forall l, Permutation (iter l) l) (s : @st R) (q : quop) (ns : list nid) :
  wf s -> oper s q ns -> copyable s q ->
  exists s' C nC, projector iter q s = (s', Some C) /\ made s s' C nC /\ copyable s' C /\ rows s' C = rows s q /\ cols s' C = rows s q /\ length (q_ign C) = length (q_ign q) + length (q_ign q) /\
    (forall i k g h, length i = length (q_out q) -> length k = length (q_out q) -> length g = length (q_ign q) -> length h = length (q_ign q) ->
      entry s' nC C i k (g ++ h) = lsum (idxs (cols s q)) (fun j => entry s ns q i j g *! cj (entry s ns q k j h))).
Proof. exact (@projector_ok R iter iter_perm s q ns). Qed.
Print Assumptions C39_projector.
Theorem C39_reduced_density (R : cjr) (iter : list nat -> list nat) (iter_perm : forall l, Permutation (iter l) l) (s : @st R) (q : quop) (ns : list nid) (ts : list nat) :
  wf s -> oper s q ns -> copyable s q -> NoDup ts -> (forall k, In k ts -> k < length (q_out q)) ->
  exists s' C nC, reduced_density iter q ts s = (s', Some C) /\ made s s' C nC /\ rows s' C = drop_at ts (rows s q) /\ cols s' C = drop_at ts (rows s q) /\
    (forall I J g h, length I = length (q_out q) -> length J = length (q_out q) -> length g = length (q_ign q) -> length h = length (q_ign q) ->
      entry s' nC C (drop_at ts I) (drop_at ts J) (g ++ h) =
      lsum (idxs (pick ts (rows s q))) (fun vs => lsum (idxs (cols s q)) (fun j => entry s ns q (put_at ts vs I) j g *! cj (entry s ns q (put_at ts vs J) j h)))).
Proof. exact (@reduced_density_ok R iter iter_perm s q ns ts). Qed.
Print Assumptions C39_reduced_density.
(** the vector given by a 2x3 tensor: |psi|^2, and the reduced density matrices *)
Example C39_reduced_density_example : wf ex_q /\ rank (gt 1 [2; 3]) <> 0 /\
  (let v := bind (vector_from_tensor idl (gt 1 [2; 3]) [0; 1]) in
   mat_of (v (fun q => norm idl q)) ex_q =
    Some ([], [], [], [[(122%Z, 0%Z)]]) /\
   mat_of (v (fun q => reduced_density idl q [0])) ex_q =
    Some ([3], [3], [], [[(22%Z, 0%Z); (28%Z, (-4)%Z); (34%Z, (-8)%Z)]; [(28%Z, 4%Z); (38%Z, 0%Z); (48%Z, (-4)%Z)]; [(34%Z, 8%Z); (48%Z, 4%Z); (62%Z, 0%Z)]]) /\
   mat_of (v (fun q => reduced_density idl q [1])) ex_q =
    Some ([2], [2], [], [[(16%Z, 0%Z); (34%Z, (-18)%Z)]; [(34%Z, 18%Z); (106%Z, 0%Z)]])).
Proof. split; [apply ex_q_wf|]. split; [discriminate|]. vm_compute. auto. Qed.

(** the constructor accepts exactly the operators (among objects whose edge lists have no repetitions) *)
Theorem C39_construct (R : cjr) (iter : list nat -> list nat) (iter_perm : forall l, Permutation (iter l) l) (s : @st R) (q : quop) :
  wf s -> NoDup (q_edges q) -> (forall n, is_node s n -> named s n) -> (forall n, In n (q_ref q) -> is_node s n) ->
  (forall n ns, In n (q_cps q) -> oper s (Qu (q_out q) (q_in q) (q_ref q) (q_ign q) []) ns -> In n ns) ->
  (exists ns, oper s q ns /\ construct iter q s = (s, Some q)) \/ ((forall ns, ~ oper s q ns) /\ construct iter q s = (s, None)).
Proof. exact (@construct_spec R iter iter_perm s q). Qed.
Print Assumptions C39_construct.
Example C39_construct_example : wf ex_q /\ (forall n, is_node ex_q n -> named ex_q n) /\ snd (construct idl ex_A ex_q) = Some ex_A /\
  (** one loose end is missing; an edge that is not loose; another component *)
  snd (construct idl (Qu [0] [4] [0] [] []) ex_q) = None /\ snd (construct idl (Qu [0] [4; 9] [0] [2] []) ex_q) = None /\ snd (construct idl (Qu [0] [4] [0; 2] [2] []) ex_q) = None.
Proof. split; [apply ex_q_wf|]. split; [apply ex_q_named|]. vm_compute. auto. Qed.


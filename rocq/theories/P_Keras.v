(** * C56: every dense layer of tn_keras is the dense layer with the weight matrix of its network *)
From Coq Require Import ZArith.
From Verif Require Import Prelude Algebra Tensor TensorFacts Res Backends Keras KerasSpec KerasMain.
Set Implicit Arguments.
Unset Strict Implicit.

Section Layers.
  Context {R : csr}.
  Notation tensor := (tensor R).
  Variables (bias : option tensor) (act : list R -> list R) (inputs : tensor) (d0 : nat) (mid : list nat) (n : nat).
  Notation layer_input := (layer_input bias act inputs d0 mid n).
  Notation makes := (makes bias act inputs).

  Theorem C56_decomp (D out : nat) (a b : tensor) : layer_input out -> (shape a, shape b) = decomp_shapes n D out ->
    makes (dense_decomp out a b bias act inputs) (by_matrix n (W_decomp D a b)) out.
  Proof. exact (@decomp_main R bias act inputs d0 mid n D out a b). Qed.

  Theorem C56_mpo (round_root ceil_root : nat -> nat -> nat) (out k bond i o : nat) (shapes : list (list nat)) (ws : list tensor) :
    layer_input out -> mpo_build round_root ceil_root n out k bond = Ok (i, o, shapes) -> i ^ k = n -> o ^ k = out -> map shape ws = shapes ->
    makes (dense_mpo k i out ws bias act inputs) (by_matrix n (W_mpo k bond i o ws)) out.
  Proof. exact (@mpo_main R bias act inputs d0 mid n round_root ceil_root out k bond i o shapes ws). Qed.

  Theorem C56_condenser (base k : nat) (ws : list tensor) : let out := condenser_out n base k in
    layer_input out -> n mod base ^ k = 0 -> map shape ws = condenser_shapes out base k ->
    makes (dense_condenser n base k ws bias act inputs) (by_matrix n (W_condenser k base out ws)) out.
  Proof. exact (@condenser_main R bias act inputs d0 mid n base k ws). Qed.

  Theorem C56_expander (base k : nat) (ws : list tensor) : let out := expander_out n base k in
    layer_input out -> map shape ws = expander_shapes n base k ->
    makes (dense_expander n base k ws bias act inputs) (by_matrix n (W_expander k base n ws)) out.
  Proof. exact (@expander_main R bias act inputs d0 mid n base k ws). Qed.

  Theorem C56_entangler (round_root : nat -> nat -> nat) (out legs levels leg out_leg : nat) (shapes : list (list nat)) (ws : list tensor) :
    layer_input out -> entangler_build round_root n out legs levels = Ok (leg, out_leg, shapes) -> map shape ws = shapes ->
    makes (dense_entangler legs leg out ws bias act inputs) (entangled legs leg out_leg ws) out.
  Proof. exact (@entangler_main R bias act inputs d0 mid n round_root out legs levels leg out_leg shapes ws). Qed.

End Layers.
Print Assumptions C56_decomp.
Print Assumptions C56_mpo.
Print Assumptions C56_condenser.
Print Assumptions C56_expander.
Print Assumptions C56_entangler.

(** ** concrete layers *)
Definition zt (s : list nat) (a b : Z) : tensor Z_csr := Tensor s (fun ix => (a + b * Z.of_nat (ravel s ix) mod 5)%Z : car Z_csr).
Definition root (n k : nat) : nat := length (filter (fun r => (S r) ^ k <=? n) (seq 0 n)).
Definition relu (l : list Z_csr) : list Z_csr := map (Z.max 0) l.
Definition zdata (r : res (tensor Z_csr)) : list nat * list Z := match r with Ok t => (shape t, to_list t) | _ => ([], []) end.
Lemma relu_length out : forall l, length l = out -> length (relu l) = out.
Proof. intros l <-. apply map_length. Qed.

Example C56_decomp_ex : layer_input (Some (zt [2] 1 (-1))) relu (zt [2; 1; 3] 1 1) 2 [1] 3 2 /\ (shape (zt [3; 2] (-1) 1), shape (zt [2; 2] 0 1)) = decomp_shapes 3 2 2 /\
  zdata (dense_decomp 2 (zt [3; 2] (-1) 1) (zt [2; 2] 0 1) (Some (zt [2] 1 (-1))) relu (zt [2; 1; 3] 1 1)) =
  ([2; 1; 2], [3%Z; 18%Z; 19%Z; 36%Z]).
Proof.
  split; [|repeat split; vm_compute; reflexivity]. split; [reflexivity|]. split; [vm_compute; lia|]. split; [vm_compute; lia|]. split; [reflexivity|]. apply relu_length.
Qed.

Definition ex_mpo : list (tensor Z_csr) := [zt [2; 2; 2] (-2) 1; zt [2; 2; 2; 2] (-1) 1; zt [2; 2; 2] 1 1].
Example C56_mpo_ex : layer_input None relu (zt [2; 8] 1 1) 2 [] 8 8 /\ mpo_build root root 8 8 3 2 = Ok (2, 2, map shape ex_mpo) /\ 2 ^ 3 = 8 /\
  zdata (dense_mpo 3 2 8 ex_mpo None relu (zt [2; 8] 1 1)) =
  ([2; 8], [0%Z; 0%Z; 0%Z; 25%Z; 24%Z; 74%Z; 0%Z; 0%Z; 0%Z; 0%Z; 0%Z; 1%Z; 117%Z; 31%Z; 0%Z; 0%Z]).
Proof.
  split; [|repeat split; vm_compute; reflexivity]. split; [reflexivity|]. split; [vm_compute; lia|]. split; [vm_compute; lia|]. split; [exact I|]. apply relu_length.
Qed.

Definition ex_con : list (tensor Z_csr) := [zt [3; 2; 3] (-2) 1; zt [3; 2; 3] (-1) 1].
Example C56_condenser_ex : layer_input (Some (zt [3] 1 (-1))) relu (zt [2; 12] 1 1) 2 [] 12 (condenser_out 12 2 2) /\ 12 mod 2 ^ 2 = 0 /\ map shape ex_con = condenser_shapes (condenser_out 12 2 2) 2 2 /\
  zdata (dense_condenser 12 2 2 ex_con (Some (zt [3] 1 (-1))) relu (zt [2; 12] 1 1)) =
  ([2; 3], [4%Z; 0%Z; 0%Z; 0%Z; 0%Z; 30%Z]).
Proof.
  split; [|repeat split; vm_compute; reflexivity]. split; [reflexivity|]. split; [vm_compute; lia|]. split; [vm_compute; lia|]. split; [reflexivity|]. apply relu_length.
Qed.

Definition ex_exp : list (tensor Z_csr) := [zt [2; 3; 2] (-2) 1; zt [2; 3; 2] (-1) 1].
Example C56_expander_ex : layer_input (Some (zt [18] 1 (-1))) relu (zt [1; 2; 2] 1 1) 1 [2] 2 (expander_out 2 3 2) /\ map shape ex_exp = expander_shapes 2 3 2 /\
  zdata (dense_expander 2 3 2 ex_exp (Some (zt [18] 1 (-1))) relu (zt [1; 2; 2] 1 1)) =
  ([1; 2; 18], [5%Z; 4%Z; 0%Z; 0%Z; 0%Z; 5%Z; 3%Z; 9%Z; 15%Z; 21%Z; 2%Z; 3%Z; 6%Z; 0%Z; 0%Z; 0%Z; 3%Z; 6%Z; 11%Z; 2%Z; 0%Z; 0%Z; 0%Z; 11%Z; 1%Z; 15%Z; 29%Z; 43%Z; 2%Z; 1%Z; 6%Z; 0%Z; 0%Z; 0%Z; 9%Z; 6%Z]).
Proof.
  split; [|repeat split; vm_compute; reflexivity]. split; [reflexivity|]. split; [vm_compute; lia|]. split; [vm_compute; lia|]. split; [reflexivity|]. apply relu_length.
Qed.

Definition ex_ent : list (tensor Z_csr) := [zt [2; 2; 2; 2] (-2) 1; zt [2; 2; 2; 2] (-1) 1; zt [2; 2; 3; 2] (-1) 1; zt [2; 2; 3; 3] (-2) 1].
Example C56_entangler_ex : layer_input None relu (zt [1; 8] 1 1) 1 [] 8 27 /\ entangler_build root 8 27 3 2 = Ok (2, 3, map shape ex_ent) /\
  zdata (dense_entangler 3 2 27 ex_ent None relu (zt [1; 8] 1 1)) =
  ([1; 27], [70%Z; 0%Z; 217%Z; 33%Z; 0%Z; 70%Z; 0%Z; 217%Z; 33%Z; 52%Z; 0%Z; 0%Z; 231%Z; 194%Z; 52%Z; 0%Z; 0%Z; 231%Z; 0%Z; 0%Z; 214%Z; 64%Z; 0%Z; 0%Z; 0%Z; 214%Z; 64%Z]).
Proof.
  split; [|repeat split; vm_compute; reflexivity]. split; [reflexivity|]. split; [vm_compute; lia|]. split; [vm_compute; lia|]. split; [exact I|]. apply relu_length.
Qed.


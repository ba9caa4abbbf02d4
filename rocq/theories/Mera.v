(** * Model of the updates of examples/simple_mera/simple_mera.py: update_iso, update_dis, shift_ham

    The environment [env] is an argument: env_iso and env_dis are derivatives taken by jax (110-180) and are not modelled.
    Nodes are replaced by their tensors: the node calls of update_iso and update_dis split a node along its own order of
    axes, join the two isometries in place of the singular values and contract, so that the axes come back in their order.
    The routines of jax.numpy.linalg are parameters. *)
From Coq Require Import List.
From Verif Require Import Prelude Algebra Tensor Backends GraphCopy Krylov.
Set Implicit Arguments.
Unset Strict Implicit.

Section Mera.
  Context {K : cfd}.
  Notation tensor := (tensor K).
  (** [np.linalg.svd(., full_matrices=False)] *)
  Variable svdf : tensor -> tensor * list K * tensor.

  (** simple_mera.py 200-211, 233-244: split_node_full_svd without truncation, the singular values dropped,
      contract_between, np.conj *)
  Definition polar_update (env : tensor) (pivot : nat) : tensor :=
    let '(u, _, vh, _) := svd svdf (fun s => length s) env pivot in
    conj_t (tensordot u vh [rank u - 1] [0]).

  (** 182-211: axes l, r | t *)
  Definition update_iso (env : tensor) : tensor := polar_update env 2.
  (** 214-244: axes bl, br | tl, tr *)
  Definition update_dis (env : tensor) : tensor := polar_update env 2.

  (** [np.linalg.eigh(.)[0]] *)
  Variable eigvalsh : tensor -> list K.

  (** [np.amax] of real numbers *)
  Definition amax (l : list K) : K :=
    match l with [] => r0 | x :: r => fold_left (fun m y => if clt m y then y else m) r x end.

  (** 247-262 [shift_ham] of a tensor of shape 2,2,2,2,2,2 *)
  Definition shift_ham (h : tensor) (shift : option K) : tensor :=
    let hmat := reshape h [8; 8] in
    let c := match shift with Some c => c | None => amax (eigvalsh hmat) end in
    let m := Tensor [8; 8] (fun ix => elt hmat ix -! (c *! (if nth 0 ix 0 =? nth 1 ix 0 then r1 else r0))) in
    reshape m [2; 2; 2; 2; 2; 2].
End Mera.

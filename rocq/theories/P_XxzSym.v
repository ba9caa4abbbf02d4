(** * C68: the XXZ Hamiltonian with U(1) symmetry *)
From Coq Require Import ZArith.
From Verif Require Import Prelude Algebra Tensor Res Charge ChargeInst BlockSparse BlockSpec BstSpec Mpo MpoSpec MpoMain XxzSym XxzSymFacts.
Set Implicit Arguments.
Unset Strict Implicit.
Local Open Scope nat_scope.

(** the block-sparse tensors have exactly the entries of the dense ones: the charges of the example lose nothing;
    neighbouring tensors can be contracted *)
Theorem C68_lossless (R : csr) (half mone : R) Jz Jxy Bz ts : finite_xxz half mone Jz Jxy Bz = Ok ts ->
  exists bs, blocksparse_xxz half mone Jz Jxy Bz = Ok bs /\
    Forall2 (fun b t => wf_bst b /\ bord b <> [] /\ exists d, todense b = Ok d /\ teq d t) bs ts /\
    forall n u v, nth_error bs n = Some u -> nth_error bs (S n) = Some v -> compatible u v [1] [0].
Proof. exact (@blocksparse_xxz_ok R half mone Jz Jxy Bz ts). Qed.
Print Assumptions C68_lossless.

(** the contraction of the dense forms is the XXZ Hamiltonian *)
Theorem C68_hamiltonian (R : csr) (half mone : R) Jz Jxy Bz N :
  length Bz = N -> 2 <= N -> N - 1 <= length Jz -> N - 1 <= length Jxy ->
  exists bs ds, blocksparse_xxz half mone Jz Jxy Bz = Ok bs /\ Forall2 (fun b d => todense b = Ok d) bs ds /\ length ds = N /\
    forall s s', spins N s -> spins N s' ->
      mpo_entry ds s s' = H_xxz half mone (fun n => nth n Jz r0) (fun n => nth n Jxy r0) (fun n => nth n Bz r0) N s s'.
Proof. exact (@blocksparse_xxz_hamiltonian R half mone Jz Jxy Bz N). Qed.
Print Assumptions C68_hamiltonian.

(** the Hamiltonian does not change the number of spins that point up *)
Theorem C68_conserved (R : csr) (half mone : R) Jz Jxy Bz N s s' :
  length Bz = N -> 2 <= N -> N - 1 <= length Jz -> N - 1 <= length Jxy ->
  spins N s -> spins N s' -> list_sum s <> list_sum s' ->
  H_xxz half mone (fun n => nth n Jz r0) (fun n => nth n Jxy r0) (fun n => nth n Bz r0) N s s' = r0.
Proof. exact (@xxz_conserved R half mone Jz Jxy Bz N s s'). Qed.
Print Assumptions C68_conserved.

(** three sites, with 2 and 7 for the constants 1/2 and -1: 8, 34 and 8 of the 20, 100 and 20 entries are stored *)
Example C68_example :
  let r := @blocksparse_xxz Z_csr 2%Z 7%Z [1; 2]%Z [3; 5]%Z [7; 11; 13]%Z in
  (exists ts, @finite_xxz Z_csr 2%Z 7%Z [1; 2]%Z [3; 5]%Z [7; 11; 13]%Z = Ok ts) /\
  rbind r (fun bs => Ok (map (fun b => bshape b) bs)) = Ok [[1; 5; 2; 2]; [5; 5; 2; 2]; [5; 1; 2; 2]] /\
  rbind r (fun bs => Ok (map (fun b => bdata b) bs)) =
    Ok [[98; 14; 6; 6; 14; 2; 1; 1];
        [1; 1; 0; 0; 0; 0; 0; 0; 1; 0; 0; 0; 0; 1; 0; 0; 0; 0; 14; 2; 0; 0; 0; 0; 0; 0; 154; 22; 10; 10; 28; 4; 1; 1];
        [1; 1; 1; 1; 14; 2; 182; 26]]%Z /\
  spins 3 [1; 0; 1] /\ spins 3 [0; 0; 1] /\ list_sum [1; 0; 1] <> list_sum [0; 0; 1].
Proof.
  cbv zeta. split; [eexists; reflexivity|]. split; [vm_compute; reflexivity|]. split; [vm_compute; reflexivity|].
  split; [split; [reflexivity|repeat constructor]|]. split; [split; [reflexivity|repeat constructor]|]. discriminate.
Qed.

(** * R_Context: two places that do not follow the current default backend *)
From Verif Require Import Prelude Context ContextSpec ContextFacts.
From Coq Require Import String.
Set Implicit Arguments.
Unset Strict Implicit.

(** node_linalg.eye, zeros, ... called without a backend raise whenever the current default was given by name, which
    includes the default the library starts with, while Node(...) succeeds there *)
Theorem C42_initialize_node_refuted : exists k,
  snd (exec (Create None None false) k) = true /\ snd (exec (InitTensor None false) k) = true /\
  snd (exec (InitNode None false) k) = false.
Proof. exists (start 0). repeat split; vm_compute; reflexivity. Qed.
Print Assumptions C42_initialize_node_refuted.

(** a collection block does not by itself restore the default backend *)
Theorem C42_collection_default_refuted : exists p c k,
  get_default_backend (fst (exec (InColl (Some c) p) k)) <> get_default_backend k.
Proof. exists (SetDefault (Txt "jax")), 0, (start 0). vm_compute. discriminate. Qed.
Print Assumptions C42_collection_default_refuted.

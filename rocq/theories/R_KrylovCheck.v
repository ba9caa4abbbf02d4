(** * C73, refuted: the backends of args, the error for x0 *)
From Coq Require Import String.
From Verif Require Import Prelude SwitchBackend KrylovCheck.
Set Implicit Arguments.
Unset Strict Implicit.
Open Scope string_scope.
Open Scope list_scope.

(** the docstring says that the backends of args agree with the backend: they are not checked *)
Theorem C73_args_backend_refuted : exists (x0 : obj nat) b a r, b <> "numpy" /\
  krylov_error_checks (Some "numpy") (Some x0) (Some [Tens b a]) = inl ("numpy", r, Some [a]).
Proof. exists (Tens "numpy" 1), "jax", 2, (Some 1). split; [discriminate | reflexivity]. Qed.
Print Assumptions C73_args_backend_refuted.

(** an x0 that is not a Tensor is a TypeError only if the backend is given *)
Theorem C73_x0_error_refuted : exists x0 : obj nat, krylov_error_checks None (Some x0) None = inr AttributeError.
Proof. exists Other. reflexivity. Qed.
Print Assumptions C73_x0_error_refuted.

(** * C74, refuted: one row, rows without numbers, more than 8 bytes *)
From Verif Require Import Prelude Res Collapse.
Set Implicit Arguments.
Unset Strict Implicit.

(** one row is squeezed to an array without axes, which is not expanded *)
Theorem C74_one_row_refuted : exists s w rows x, rbind (collapse s (A2 w rows)) (expand (get_dtype (s * w)) s w 2) = Ok (A0 x).
Proof. exists 2, 2, [[[1; 0]; [2; 0]]], [1; 0; 2; 0]. reflexivity. Qed.
Print Assumptions C74_one_row_refuted.

(** rows without numbers are padded to eight zeros and stay so *)
Theorem C74_no_columns_refuted : exists s rows rows', rbind (collapse s (A2 0 rows)) (expand (get_dtype (s * 0)) s 0 2) = Ok (A2 8 rows') /\ length rows = 2.
Proof. exists 1, [[]; []]. eexists. split; reflexivity. Qed.
Print Assumptions C74_no_columns_refuted.

(** the dtype for more than 8 bytes has no room *)
Theorem C74_dtype_refuted : exists n, get_dtype n < n.
Proof. exists 9. cbn. lia. Qed.
Print Assumptions C74_dtype_refuted.

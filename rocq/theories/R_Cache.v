(** * R_Cache: the cache confuses symmetries *)
From Coq Require Import ZArith.
From Verif Require Import Prelude Algebra Tensor Res Charge ChargeFacts ChargeInst BlockSparse BlockCache.
Set Implicit Arguments.
Unset Strict Implicit.

Definition HU : forallb ok_sym [U1] = true := eq_refl.
Definition HZ : forallb ok_sym [Z2] = true := eq_refl.
Definition HUU : forallb ok_sym [U1; U1] = true := eq_refl.
Definition rU (z : Z) (E : ok_row [U1] [z] = true) : sym_chg HU := exist _ [z] E.
Definition rZ (z : Z) (E : ok_row [Z2] [z] = true) : sym_chg HZ := exist _ [z] E.
Definition rUU (x y : Z) (E : ok_row [U1; U1] [x; y] = true) : sym_chg HUU := exist _ [x; y] E.
(** two legs with charges 0 and 1, as U1 and as Z2 charges *)
Definition callU := let c := Raw [rU (z := 0) eq_refl; rU (z := 1) eq_refl] in @Call [U1] HU [c; c] [false; false] 1 [0; 1].
Definition callZ := let c := Raw [rZ (z := 0) eq_refl; rZ (z := 1) eq_refl] in @Call [Z2] HZ [c; c] [false; false] 1 [0; 1].
(** two legs of dimension 1 and charge (0,0), or of dimension 2 and charges 0, 0 *)
Definition callUU := let c := Raw [rUU (x := 0) (y := 0) eq_refl] in @Call [U1; U1] HUU [c; c] [false; false] 1 [0; 1].
Definition callU0 := let c := Raw [rU (z := 0) eq_refl; rU (z := 0) eq_refl] in @Call [U1] HU [c; c] [false; false] 1 [0; 1].
(** switch caching on, search blocks for the first call, return what the second search finds *)
Definition both (c d : call) : prog (res found) := Admin (fun _ => (true, false)) (Find c (fun _ => Find d (fun v => Ret v))).

(** a Z2 tensor gets the blocks of a U1 tensor used before *)
Theorem C32_mixed_symmetries_refuted : exists p : prog (res found), forall lim blim junk, 4 < lim -> 2 < blim ->
  fst (run lim blim junk p (false, [])) <> run_uncached lim blim junk p.
Proof.
  exists (both callU callZ). intros lim blim junk Hl Hb. 
  do 5 (destruct lim as [|lim]; [lia|]). do 3 (destruct blim as [|blim]; [lia|]).
  vm_compute. discriminate.
Qed.
Print Assumptions C32_mixed_symmetries_refuted.
(** so do charges of different numbers of symmetries *)
Theorem C32_number_of_symmetries_refuted : exists p : prog (res found), forall lim blim junk, 4 < lim -> 2 < blim ->
  fst (run lim blim junk p (false, [])) <> run_uncached lim blim junk p.
Proof.
  exists (both callUU callU0). intros lim blim junk Hl Hb.
  do 5 (destruct lim as [|lim]; [lia|]). do 3 (destruct blim as [|blim]; [lia|]).
  vm_compute. discriminate.
Qed.
Print Assumptions C32_number_of_symmetries_refuted.

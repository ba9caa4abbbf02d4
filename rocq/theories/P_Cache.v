(** * P_Cache: C32, caching of block data *)
From Coq Require Import ZArith.
From Verif Require Import Prelude Algebra Tensor Res Charge ChargeFacts ChargeInst BlockSparse BlockSpec BlockFacts BlockMaps BlockCache BlockCacheFacts BstExamples.
Set Implicit Arguments.
Unset Strict Implicit.

(** the string under which a result is stored determines all arguments of the call, for charges of [w] symmetries *)
Theorem C32_key w cs fs p order cs' fs' p' order' : 0 < w ->
  Forall (Forall (is_row w)) cs -> Forall (Forall (is_row w)) cs' ->
  Forall (fun i => (Z.of_nat i <= 32767)%Z) order -> Forall (fun i => (Z.of_nat i <= 32767)%Z) order' ->
  to_string cs fs p order = to_string cs' fs' p' order' -> cs = cs' /\ fs = fs' /\ p = p' /\ order = order'.
Proof. exact (@to_string_inj w cs fs p order cs' fs' p' order'). Qed.
Print Assumptions C32_key.

(** any computation over tensors of one symmetry, with caching switched on and off and the cache cleared at any time, gives
    what it gives without a cache.  [on] is the initial status, the cache is initially empty.
    Missing for the full claim: computations mixing symmetries, for which it is false (R_Cache.v) *)
Theorem C32_one_symmetry_partial lim blim junk ss (H : forallb ok_sym ss = true) A (p : prog A) on :
  0 < lim -> ss <> [] -> good_run lim blim junk H p ->
  fst (run lim blim junk p (on, [])) = run_uncached lim blim junk p.
Proof. intros L N G. apply (@run_transparent lim blim junk L ss H N A p on [] G). intros k v []. Qed.
Print Assumptions C32_one_symmetry_partial.

Definition H1 : forallb ok_sym [U1] = true := eq_refl.
Definition u (z : Z) (E : ok_row [U1] [z] = true) : sym_chg H1 := exist _ [z] E.
Definition c1 : bc (sym_chg H1) := Raw [u (z := 0) eq_refl; u (z := 1) eq_refl; u (z := 1) eq_refl].
Definition c2 : bc (sym_chg H1) := Lab [u (z := 1) eq_refl; u (z := 0) eq_refl] [1; 0; 0].
Definition call1 := @Call [U1] H1 [c1; c2; c1] [false; false; true] 2 [2; 0; 1].
Definition call2 := @Call [U1] H1 [c2; c1; c2] [false; false; true] 2 [2; 0; 1].
(** one search, with caching switched on, then the same search on other representations of the same charges *)
Definition p12 : prog (nat * nat) :=
  Admin (fun _ => (true, false)) (Find call1 (fun a => Find call2 (fun b =>
    Ret (match a, b with Ok (m, _, _), Ok (m', _, _) => (length (concat m), length (concat m')) | _, _ => (0, 0) end)))).
Lemma call_good cs fs p order : forallb (bc_okb (G := sym_chg H1)) cs = true -> length cs = length fs -> cs <> [] -> p <= length cs ->
  is_permb (length cs) order = true -> (Z.of_nat (length cs) <= 32768)%Z -> good H1 (@Call [U1] H1 cs fs p order).
Proof.
  intros A B C D E F. exists cs, fs, p, order. split; [reflexivity|]. split; [|split; [exact B|split; [exact C|split; [exact D|split; [apply is_permb_spec, E|exact F]]]]].
  intros c Hc. apply bc_okb_ok. rewrite forallb_forall in A. apply A, Hc.
Qed.
Example C32_example : good_run 5 3 77 H1 p12 /\ fst (run 5 3 77 p12 (false, [])) = (9, 9) /\
  length (snd (snd (run 5 3 77 p12 (false, [])))) = 1.
Proof.
  split; [|split; vm_compute; reflexivity].
  cbn [good_run p12]. split; [|split; [|exact I]]; apply call_good; try reflexivity; try discriminate; cbn; lia.
Qed.

(** * JaxKrylovMain: the implicitly restarted methods *)
From Coq Require Import Field Permutation.
From Verif Require Import Prelude Algebra Krylov KrylovFacts KrylovSpec KrylovRitz Gmres GmresSpec GmresFacts GmresMain
  JaxKrylov JaxKrylovSpec JaxKrylovFacts JaxKrylovArn JaxKrylovShift JaxKrylovSort.
Set Implicit Arguments.
Unset Strict Implicit.

Notation vat l := (fun i => nth i l vz).

Section Fin.
  Context {K : cfd} {V : ips K}.
  Add Field Kf : (cfth K).
  Variable A : V -> V.
  Hypothesis Hlin : linear A.

  Lemma fac_entry n v h f i j : fac A n v h f -> i < n -> j < n -> h i j = ip (v i) (A (v j)).
  Proof.
    intros F Hi Hj. rewrite (f_eq F) by exact Hj. rewrite ip_add, ip_vsum.
    rewrite (@nsum_single K n _ i Hi).
    - rewrite ip_vs, (f_on F) by assumption. unfold delta_. rewrite Nat.eqb_refl.
      destruct (S j =? n); [rewrite (f_perp F) by exact Hi|rewrite ip_0]; ring.
    - intros l Hl Hne. rewrite ip_vs, (f_on F) by assumption. unfold delta_. destruct (Nat.eqb_spec i l); [congruence|ring].
  Qed.
  Lemma fac_arnoldi n (Vm : list V) H f : n <= length Vm -> fac A n (vat Vm) (ent H) f -> arnoldi_fac A (firstn n Vm) H f.
  Proof.
    intros Hn F. assert (L : length (firstn n Vm) = n) by (rewrite firstn_length; lia).
    constructor; rewrite ?L; unfold orthonormal; rewrite ?L.
    - intros i j Hi Hj. rewrite !firstn_nth by assumption. apply (f_on F); assumption.
    - intros j Hj. rewrite firstn_nth by exact Hj. rewrite (f_eq F) by exact Hj. f_equal. unfold lin. rewrite L.
      apply vsum_ext. intros i Hi. rewrite firstn_nth by exact Hi. reflexivity.
    - intros i Hi. rewrite firstn_nth by exact Hi. apply (f_perp F). exact Hi.
    - intros i j Hi Hj Hij. apply (f_hess F); assumption.
  Qed.
  Lemma vec_sum n (g : nat -> K) (v : nat -> V) i : (forall i j, i < n -> j < n -> ip (v i) (v j) = delta_ i j) -> i < n ->
    ip (v i) (vsum n (fun k => vs (g k) (v k))) = g i.
  Proof.
    intros O Hi. rewrite ip_vsum, (@nsum_single K n _ i Hi).
    - rewrite ip_vs, O by assumption. unfold delta_. rewrite Nat.eqb_refl. ring.
    - intros l Hl Hne. rewrite ip_vs, O by assumption. unfold delta_. destruct (Nat.eqb_spec i l); [congruence|ring].
  Qed.
  Lemma vec_ip n (g g' : nat -> K) (v : nat -> V) : (forall i j, i < n -> j < n -> ip (v i) (v j) = delta_ i j) ->
    ip (vsum n (fun k => vs (g k) (v k))) (vsum n (fun k => vs (g' k) (v k))) = nsum n (fun k => cj (g k) *! g' k).
  Proof. intros O. rewrite ip_vsuml. apply nsum_ext. intros i Hi. rewrite ip_vsl, vec_sum by assumption. reflexivity. Qed.
  Lemma fac_lin n v h f (u : nat -> K) : fac A n v h f -> 0 < n ->
    A (vsum n (fun i => vs (u i) (v i))) = va (vsum n (fun i => vs (nsum n (fun j => h i j *! u j)) (v i))) (vs (u (n - 1)) f).
  Proof.
    intros F Hn. rewrite (lin_vsum Hlin). apply vec_ext. intros z. rewrite ip_add, !ip_vsum, ip_vs.
    rewrite (@nsum_ext K n _ (fun j => nsum n (fun i => h i j *! u j *! ip z (v i)) +! (if S j =? n then u j *! ip z f else r0))).
    2: { intros j Hj. rewrite ip_vs, (f_eq F), ip_add, ip_vsum by exact Hj.
         transitivity (u j *! nsum n (fun i => ip z (vs (h i j) (v i))) +! u j *! ip z (if S j =? n then f else vz)); [ring|].
         f_equal; [|destruct (S j =? n); [reflexivity|rewrite ip_0; ring]].
         rewrite <- nsum_mul_l. apply nsum_ext. intros i Hi. rewrite ip_vs. ring. }
    rewrite nsum_add, nsum_swap. f_equal.
    - apply nsum_ext. intros i Hi. rewrite ip_vs, <- nsum_mul_r. reflexivity.
    - rewrite (@nsum_single K n _ (n - 1)); [|lia|].
      + destruct (Nat.eqb_spec (S (n - 1)) n); [reflexivity|lia].
      + intros j Hj Hne. destruct (Nat.eqb_spec (S j) n); [lia|reflexivity].
  Qed.
  Lemma part_le n (g : nat -> K) i : i < n -> cpos (nsum n (fun k => cj (g k) *! g k) -! cj (g i) *! g i).
  Proof.
    intros Hi. rewrite (@nsum_ext K n _ (fun k => (if k =? i then r0 else cj (g k) *! g k) +! (if k =? i then cj (g i) *! g i else r0))).
    2: { intros k Hk. destruct (Nat.eqb_spec k i); [subst|]; ring. }
    rewrite nsum_add. rewrite (@nsum_single K n (fun k => if k =? i then cj (g i) *! g i else r0) i Hi).
    2: { intros k Hk Hne. destruct (Nat.eqb_spec k i); [contradiction|reflexivity]. }
    rewrite Nat.eqb_refl. match goal with |- cpos ?x => replace x with (nsum n (fun k => if k =? i then r0 else cj (g k) *! g k)) by ring end.
    apply cpos_lsum. intros k Hk. destruct (k =? i); [apply cpos_0|apply cpos_sq].
  Qed.

  (** the eigenvectors of the masked matrix *)
  Section Vecs.
    Variables (N m : nat) (Vm : list V) (H : mx K) (f : V) (U : mx K).
    Hypothesis L : length Vm = N.
    Hypothesis Hm : m <= N.
    Hypothesis F : fac A m (vat Vm) (ent H) f.
    Hypothesis HN : 0 < N.
    Definition col (j : nat) : V := vsum N (fun i => vs (ent U i j) (nth i Vm vz)).
    Definition good_col (th : K) (j : nat) : Prop :=
      (forall i, i < N -> nsum N (fun k => ent (mask_h N m H) i k *! ent U k j) = th *! ent U i j) /\
      nsum N (fun k => cj (ent U k j) *! ent U k j) = r1 /\ (th <> r0 \/ m = N).
    Lemma mask_sum i (g : nat -> K) : i < N -> nsum N (fun k => ent (mask_h N m H) i k *! g k) =
      if i <? m then nsum m (fun k => ent H i k *! g k) else r0.
    Proof.
      intros Hi. destruct (Nat.ltb_spec i m) as [C|C].
      - rewrite (@nsum_ext K N _ (fun k => if k <? m then ent H i k *! g k else r0)).
        2: { intros k Hk. unfold mask_h. rewrite ent_mkmx by assumption. destruct (Nat.ltb_spec i m); [|lia]. destruct (k <? m); cbn [andb]; [reflexivity|ring]. }
        clear - Hm. induction N as [|n IH]; [replace m with 0 by lia; reflexivity|].
        rewrite nsum_S. destruct (Nat.eq_dec m (S n)) as [->|Hne].
        + rewrite nsum_S. destruct (Nat.ltb_spec n (S n)); [|lia]. f_equal. apply nsum_ext. intros k Hk. destruct (Nat.ltb_spec k (S n)); [reflexivity|lia].
        + rewrite IH by lia. destruct (Nat.ltb_spec n m); [lia|ring].
      - apply nsum_zero. intros k Hk. unfold mask_h. rewrite ent_mkmx by assumption. destruct (Nat.ltb_spec i m); [lia|]. cbn [andb]. ring.
    Qed.
    Lemma col_over th j i : good_col th j -> m <= i -> i < N -> ent U i j = r0.
    Proof.
      intros (G1 & _ & G3) Hi Hi'. specialize (G1 i Hi'). rewrite mask_sum in G1 by exact Hi'.
      destruct (Nat.ltb_spec i m); [lia|]. destruct G3 as [G3|G3]; [|lia]. symmetry in G1. destruct (mul_eq0 G1); [contradiction|assumption].
    Qed.
    Lemma nsum_cut n' (g : nat -> K) : n' <= N -> (forall i, n' <= i -> i < N -> g i = r0) -> nsum N g = nsum n' g.
    Proof.
      clear. intros Hn Z. induction N as [|n IH]; [replace n' with 0 by lia; reflexivity|].
      destruct (Nat.eq_dec n' (S n)) as [->|Hne]; [reflexivity|]. rewrite nsum_S, IH, Z by (try lia; intros; apply Z; lia). ring.
    Qed.
    Lemma col_cut th j : good_col th j -> col j = vsum m (fun i => vs (ent U i j) (nth i Vm vz)).
    Proof.
      intros G. unfold col. apply vsum_cut; [exact Hm|]. intros i Hi Hi'. rewrite (col_over G Hi Hi'). apply vs_0.
    Qed.
    Lemma col_ip th j th' j' : good_col th j -> good_col th' j' -> ip (col j) (col j') = nsum N (fun k => cj (ent U k j) *! ent U k j').
    Proof.
      intros G G'. rewrite (col_cut G), (col_cut G'). rewrite vec_ip by exact (f_on F).
      symmetry. apply nsum_cut; [exact Hm|]. intros i Hi Hi'. rewrite (col_over G' Hi Hi'). ring.
    Qed.
    Lemma col_ritz th j : good_col th j -> ritz_approx A (firstn m Vm) f th (col j).
    Proof.
      intros G. assert (L' : length (firstn m Vm) = m) by (rewrite firstn_length; lia).
      pose proof G as (G1 & G2 & G3).
      assert (G2' : nsum m (fun k => cj (ent U k j) *! ent U k j) = r1).
      { rewrite <- G2. symmetry. apply nsum_cut; [exact Hm|]. intros i Hi Hi'. rewrite (col_over G Hi Hi'). ring. }
      assert (H0 : 0 < m).
      { destruct m as [|m']; [|lia]. exfalso. unfold nsum in G2'. cbn in G2'. apply (@one_neq0 K). symmetry. exact G2'. }
      split; [|split].
      - exists (fun i => ent U i j). rewrite (col_cut G). unfold lin. rewrite L'. apply vsum_ext. intros i Hi. rewrite firstn_nth by exact Hi. reflexivity.
      - rewrite (col_ip G G). exact G2.
      - exists (ent U (m - 1) j). split.
        + rewrite <- G2'. apply (@part_le m (fun k => ent U k j)). lia.
        + rewrite (col_cut G), (fac_lin (fun i => ent U i j) F H0). f_equal.
          apply vec_ext. intros z. rewrite ip_vs, !ip_vsum, <- nsum_mul_l. apply nsum_ext. intros i Hi. rewrite !ip_vs.
          assert (Hi' : i < N) by lia. specialize (G1 i Hi'). rewrite mask_sum in G1 by exact Hi'. destruct (Nat.ltb_spec i m); [|lia].
          rewrite G1. ring.
    Qed.
  End Vecs.

  Lemma get_vectors_ok (Vm : list V) (U : mx K) inds : forall xs, get_vectors Vm U inds = Val xs ->
    length xs = length inds /\ forall j, j < length inds ->
      ip (col (length Vm) Vm U (nth j inds 0)) (col (length Vm) Vm U (nth j inds 0)) = r1 -> nth j xs vz = col (length Vm) Vm U (nth j inds 0).
  Proof.
    induction inds as [|n l IH]; intros xs E; cbn [get_vectors] in E.
    - injection E as <-. split; [reflexivity|]. intros j Hj. simpl in Hj. lia.
    - fold (col (length Vm) Vm U n) in E. set (s := col (length Vm) Vm U n) in E.
      destruct (nrm s) as [z| |] eqn:Ez; cbn [obind] in E; try discriminate.
      destruct (vdiv s z) as [x| |] eqn:Ex; cbn [obind] in E; try discriminate.
      destruct (get_vectors Vm U l) as [ys| |]; cbn [obind] in E; try discriminate. injection E as <-.
      destruct (IH _ eq_refl) as [L1 L2]. split; [simpl; rewrite L1; reflexivity|].
      intros [|j] Hj U1; [|simpl; apply L2; [simpl in Hj; lia|exact U1]]. cbn [nth] in U1 |- *. fold s in U1 |- *.
      unfold nrm in Ez. rewrite U1 in Ez. destruct (csqrt r1) as [z'|] eqn:Ec; cbn [ofopt] in Ez; [|discriminate]. injection Ez as ->.
      destruct (csqrt_ok Ec) as [C1 C2]. pose proof (sqrt1 C1 C2) as ->. destruct (vs_vdiv Ex) as [_ Es]. rewrite Es, vs_1. reflexivity.
  Qed.
End Fin.

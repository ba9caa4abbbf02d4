(** * JaxLanczosMain: [jax_lanczos] and [eigsh_lanczos] of the jax backend *)
From Coq Require Import Field.
From Verif Require Import Prelude Algebra Krylov KrylovFacts KrylovSpec KrylovLanczos KrylovRitz KrylovMain Gmres GmresFacts
  JaxKrylov JaxKrylovFacts JaxLanczos JaxLanczosFacts.
Set Implicit Arguments.
Unset Strict Implicit.

Lemma nth_first T (d : T) n : forall l k, k < n -> nth k (firstn n l) d = nth k l d.
Proof. induction n as [|n IH]; intros [|x l] [|k] H; simpl; try lia; try reflexivity. apply IH. lia. Qed.

(** ** the expansion of the eigenvectors *)
Section Vectors.
  Context {K : cfd} {V : ips K}.
  Variables (ncv neig : nat) (kv : list V) (U : mx K).
  Hypothesis Hn : 0 < ncv.
  Hypothesis Lk : length kv = ncv + 2.
  Let f n := fun m => vs (ent U m n) (nth (S m) kv vz).
  Let step (vecs : list V) i := put vecs (i / ncv) (va (nth (i / ncv) vecs vz) (vs (ent U (i mod ncv) (i / ncv)) (nth (S (i mod ncv)) kv vz))).

  Lemma vectors_step t : forall vecs, fold_left step (seq 0 t) (repeat vz neig) = vecs ->
    length vecs = neig /\ forall n, n < neig -> nth n vecs vz = vsum (Nat.min ncv (t - n * ncv)) (f n).
  Proof.
    induction t as [|t IH]; intros vecs E.
    - simpl in E. subst vecs. split; [apply repeat_length|]. intros n _. rewrite nth_repeat. replace (Nat.min ncv (0 - n * ncv)) with 0 by lia. reflexivity.
    - rewrite seq_S, fold_left_app in E. cbn [fold_left plus] in E.
      destruct (IH _ eq_refl) as [L IHn]. set (old := fold_left step (seq 0 t) (repeat vz neig)) in *. unfold step in E. subst vecs.
      split; [rewrite put_length; exact L|]. intros n Hl. rewrite put_nth.
      pose proof (Nat.div_mod_eq t ncv) as Dm. pose proof (Nat.mod_upper_bound t ncv ltac:(lia)) as Um.
      set (q := t / ncv) in *. set (r := t mod ncv) in *.
      destruct (Nat.eq_dec n q) as [->|N].
      + rewrite Nat.eqb_refl. replace (q <? length old) with true by (symmetry; apply Nat.ltb_lt; lia). cbn [andb].
        rewrite IHn by exact Hl. replace (Nat.min ncv (t - q * ncv)) with r by lia. replace (Nat.min ncv (S t - q * ncv)) with (S r) by lia.
        rewrite vsum_S. reflexivity.
      + replace (n =? q) with false by (symmetry; apply Nat.eqb_neq; exact N). cbn [andb]. rewrite IHn by exact Hl. f_equal.
        destruct (Nat.lt_ge_cases n q) as [Hq|Hq].
        * assert (n * ncv + ncv <= q * ncv) by nia. lia.
        * assert (q * ncv + ncv <= n * ncv) by nia. lia.
  Qed.
  Lemma vectors_eq : jl_vectors ncv neig kv U = map (fun n => vsum ncv (f n)) (seq 0 neig).
  Proof.
    unfold jl_vectors. rewrite Lk. replace (ncv + 2 - 1) with (S ncv) by lia.
    destruct (vectors_step (t := neig * S ncv) eq_refl) as [L H]. unfold step in L, H.
    apply nth_ext with (d := vz) (d' := vz).
    - rewrite L, map_length, seq_length. reflexivity.
    - intros n Hl. rewrite L in Hl. rewrite H by exact Hl.
      rewrite (nth_indep _ vz (vsum ncv (f 0))) by (rewrite map_length, seq_length; exact Hl).
      rewrite (map_nth (fun n => vsum ncv (f n))), seq_nth by exact Hl. simpl plus. f_equal.
      assert (n * ncv + ncv <= neig * ncv) by nia. nia.
  Qed.
End Vectors.

Section Main.
  Context {K : cfd} {V : ips K}.
  Add Field Kf : (cfth K).
  Variable A : V -> V.
  Hypothesis herm : hermitian A.
  Variable eigh : mx K -> option (list K * mx K).
  Hypothesis Heigh : eigh_contract eigh.
  Variables (ncv : nat) (landelta : K) (reortho : bool).
  Let A2 (x : V) : V * bool := (A x, false).

  Lemma basis_nth (kv : list V) m j : j < m -> nth j (firstn m (tl kv)) vz = nth (S j) kv vz.
  Proof. intros Hj. rewrite nth_first by exact Hj. apply tl_nth. Qed.
  Lemma first_nth (l : list K) m j : j < m -> nth j (firstn m l) r0 = nth j l r0.
  Proof. apply nth_first. Qed.
  Lemma tl_length T (l : list T) : length (tl l) = length l - 1.
  Proof. destruct l; simpl; lia. Qed.

  (** what m rounds leave: [basis], the matrix [Tm] *)
  Section State.
    Variables (init : V) (kv : list V) (al be : list K) (m : nat) (w : V).
    Hypothesis J : jinv A ncv reortho init kv al be m w.
    Let kvm := firstn m (tl kv).
    Let dg := firstn m al.
    Let nr := firstn m (tl be).
    Lemma kvm_len : length kvm = m.
    Proof. unfold kvm. rewrite firstn_length, tl_length, (ji_kv J). pose proof (ji_m J). lia. Qed.
    Lemma dg_len : length dg = m.
    Proof. unfold dg. rewrite firstn_length, (ji_al J). pose proof (ji_m J). lia. Qed.
    Lemma kvm_linv : linv A (length kvm) (fun i => nth i kvm vz) (fun i => nth i dg r0) (fun i => nth i nr r0) w.
    Proof.
      rewrite kvm_len. apply (linv_ext (v := fun j => nth (S j) kv vz) (d := fun j => nth j al r0) (o := fun j => nth (S j) be r0)); [|exact (ji_li J)].
      intros i Hi. unfold kvm, dg, nr. rewrite basis_nth, !first_nth, tl_nth by exact Hi. auto.
    Qed.
    Lemma kvm_len_eq : length dg = length kvm.
    Proof. rewrite dg_len, kvm_len. reflexivity. Qed.
    Lemma kvm_fact : factorised A kvm (tridiag dg nr).
    Proof. exact (linv_factorised herm kvm_len_eq kvm_linv). Qed.
    Lemma kvm_res : 0 < m -> residual A kvm (tridiag dg nr) = w.
    Proof. intros H. apply (linv_residual kvm_len_eq kvm_linv). rewrite kvm_len. exact H. Qed.
    Lemma kvm_tri : tridiagonal m (tridiag dg nr).
    Proof. rewrite <- dg_len. apply tri_tri. exact (reals kvm_len_eq kvm_linv). Qed.
    Lemma kvm_herm : hermitian_mx m (tridiag dg nr).
    Proof. rewrite <- dg_len. apply tri_herm; [exact (reals kvm_len_eq kvm_linv)|exact (diag_real herm kvm_len_eq kvm_linv)]. Qed.
    Lemma kvm_span : same_span kvm (krylov A init m).
    Proof.
      replace (krylov A init m) with (krylov A init (length kvm)) by (rewrite kvm_len; reflexivity). destruct (Nat.eq_dec m 0) as [E|N].
      - apply (linv_span herm kvm_len_eq kvm_linv (a := r1)); [apply one_neq0|rewrite kvm_len; lia].
      - assert (Hm : 0 < m) by lia. destruct (ji_span J Hm) as [E1 E2].
        apply (linv_span herm kvm_len_eq kvm_linv (a := cinv (nth 1 be r0))).
        + destruct (li_real (ji_li J) (i := 0) Hm) as [_ Nz]. intros Q. apply (@one_neq0 K).
          transitivity (cinv (nth 1 be r0) *! nth 1 be r0); [symmetry; exact (cinv_l Nz)|rewrite Q; ring].
        + intros _. unfold kvm. rewrite basis_nth by exact Hm. exact E1.
    Qed.
    (** the matrix of the code has zeros outside the first m rows and columns *)
    Lemma big_ent i j : i < ncv -> j < ncv ->
      ent (tridiag al (tl be)) i j = if (i <? m) && (j <? m) then ent (tridiag dg nr) i j else r0.
    Proof.
      intros Hi Hj. unfold tridiag at 1. rewrite ent_mkmx by (rewrite (ji_al J); assumption).
      rewrite !tl_nth.
      destruct (i <? m) eqn:Ei, (j <? m) eqn:Ej; cbn [andb].
      - apply Nat.ltb_lt in Ei, Ej. unfold tridiag. rewrite ent_mkmx by (rewrite dg_len; assumption). rewrite !tl_nth. unfold dg, nr.
        rewrite (first_nth _ Ei). destruct (j =? S i) eqn:E1, (i =? S j) eqn:E2; rewrite ?first_nth, ?tl_nth; try (apply Nat.eqb_eq in E1; lia); try (apply Nat.eqb_eq in E2; lia); reflexivity.
      - apply Nat.ltb_lt in Ei. apply Nat.ltb_ge in Ej. replace (i =? j) with false by (symmetry; apply Nat.eqb_neq; lia).
        replace (i =? S j) with false by (symmetry; apply Nat.eqb_neq; lia).
        destruct (j =? S i) eqn:E; [apply Nat.eqb_eq in E|ring]. rewrite (ji_bez J) by lia. ring.
      - apply Nat.ltb_ge in Ei. apply Nat.ltb_lt in Ej. replace (i =? j) with false by (symmetry; apply Nat.eqb_neq; lia).
        replace (j =? S i) with false by (symmetry; apply Nat.eqb_neq; lia).
        destruct (i =? S j) eqn:E; [apply Nat.eqb_eq in E|ring]. rewrite (ji_bez J) by lia. rewrite cj_0. ring.
      - apply Nat.ltb_ge in Ei, Ej. rewrite (ji_alz J) by lia. rewrite !(ji_bez J) by lia. rewrite cj_0.
        destruct (i =? j), (j =? S i), (i =? S j); ring.
    Qed.
    Lemma big_herm : hermitian_mx ncv (tridiag al (tl be)).
    Proof.
      intros i j Hi Hj. rewrite !big_ent by assumption. rewrite (andb_comm (j <? m)).
      destruct ((i <? m) && (j <? m)) eqn:E; [|rewrite cj_0; reflexivity].
      apply andb_true_iff in E. destruct E as [E1 E2]. apply Nat.ltb_lt in E1, E2. apply kvm_herm; assumption.
    Qed.
    Lemma big_len : length (tridiag al (tl be)) = ncv.
    Proof. unfold tridiag. rewrite mkmx_length. apply (ji_al J). Qed.
  End State.

  Lemma big_full init kv al be w : jinv A ncv reortho init kv al be ncv w ->
    tridiag (firstn ncv al) (firstn ncv (tl be)) = tridiag al (tl be).
  Proof.
    intros J. f_equal.
    - rewrite <- (ji_al J). apply firstn_all.
    - rewrite firstn_all2; [reflexivity|]. rewrite tl_length, (ji_be J). lia.
  Qed.

  Lemma normalised_ok (l xs : list V) : normalised l = Val xs -> (forall x, In x l -> ip x x = r1) -> xs = l.
  Proof.
    revert xs. induction l as [|s l IH]; intros xs H Hl; simpl in H; [injection H as <-; reflexivity|].
    apply obind_inv in H. destruct H as (n & En & H). apply obind_inv in H. destruct H as (x & Ex & H).
    apply obind_inv in H. destruct H as (ys & Ey & H). injection H as <-.
    rewrite (IH ys Ey) by (intros; apply Hl; right; assumption). f_equal.
    apply nrm_ok in En. destruct En as [En Pn]. apply vdiv_inv in Ex. destruct Ex as [Nz ->].
    rewrite (Hl s) in En by (left; reflexivity). rewrite (sqrt1 En Pn).
    replace (cinv r1) with (r1 : K) by (field; apply one_neq0). apply vs_1.
  Qed.
  Lemma normalised_len (l xs : list V) : normalised l = Val xs -> length xs = length l.
  Proof.
    revert xs. induction l as [|s l IH]; intros xs H; simpl in H; [injection H as <-; reflexivity|].
    apply obind_inv in H. destruct H as (n & En & H). apply obind_inv in H. destruct H as (x & Ex & H).
    apply obind_inv in H. destruct H as (ys & Ey & H). injection H as <-. simpl. rewrite (IH ys Ey). reflexivity.
  Qed.
  Lemma normalised_nth (l xs : list V) j : normalised l = Val xs -> j < length l -> ip (nth j l vz) (nth j l vz) = r1 -> nth j xs vz = nth j l vz.
  Proof.
    revert xs j. induction l as [|s l IH]; intros xs j H Hj E; simpl in H; [simpl in Hj; lia|].
    apply obind_inv in H. destruct H as (n & En & H). apply obind_inv in H. destruct H as (x & Ex & H).
    apply obind_inv in H. destruct H as (ys & Ey & H). injection H as <-. destruct j as [|j]; [|simpl in *; apply IH; [exact Ey|lia|exact E]].
    simpl in E |- *. apply nrm_ok in En. destruct En as [En Pn]. apply vdiv_inv in Ex. destruct Ex as [Nz ->].
    rewrite E in En. rewrite (sqrt1 En Pn). replace (cinv r1) with (r1 : K) by (field; apply one_neq0). apply vs_1.
  Qed.
  Lemma normalised_total (l : list V) : (forall x : K, cpos x -> csqrt x <> None) -> (forall x, In x l -> ip x x = r1) -> normalised l = Val l.
  Proof.
    intros Hs. induction l as [|s l IH]; intros Hl; [reflexivity|]. simpl. unfold nrm. rewrite (Hl s) by (left; reflexivity).
    destruct (csqrt r1) as [n|] eqn:En; [|exfalso; exact (Hs _ cpos_1 En)]. simpl.
    apply csqrt_ok in En. destruct En as [En Pn]. rewrite (sqrt1 En Pn). unfold vdiv.
    destruct (cdec r1 r0) as [E|_]; [exfalso; exact (one_neq0 E)|]. simpl. rewrite IH by (intros; apply Hl; right; assumption). simpl.
    replace (cinv r1) with (r1 : K) by (field; apply one_neq0). rewrite vs_1. reflexivity.
  Qed.

  Lemma lanczos_parts neig init vals vecs its kv al be :
    jax_lanczos A eigh ncv landelta reortho neig init = Val (vals, vecs, its, (kv, al, be)) ->
    exists th U, jl_run A ncv landelta reortho init = Val (kv, al, be, its) /\ eigh (tridiag al (tl be)) = Some (th, U) /\
      normalised (jl_vectors ncv neig kv U) = Val vecs /\ vals = firstn neig th.
  Proof.
    intros H. unfold jax_lanczos in H. apply obind_inv in H. destruct H as ([[[kv0 al0] be0] i0] & Er & H).
    apply obind_inv in H. destruct H as ([th U] & Ee & H). apply obind_inv in H. destruct H as (xs & Ex & H).
    injection H as <- <- <- -> -> ->. exists th, U. unfold ofopt in Ee. destruct (eigh (tridiag al (tl be))); [|discriminate].
    injection Ee as ->. auto.
  Qed.

  (** the run: the Krylov vectors and the matrix *)
  Theorem jl_factorised neig init vals vecs its kv al be :
    jax_lanczos A eigh ncv landelta reortho neig init = Val (vals, vecs, its, (kv, al, be)) ->
    exists m, its = S m /\ m <= ncv /\
      let kvm := firstn m (tl kv) in let T := tridiag (firstn m al) (firstn m (tl be)) in
      length kvm = m /\ factorised A kvm T /\ tridiagonal m T /\ hermitian_mx m T /\ same_span kvm (krylov A init m) /\
      (m < ncv -> clt landelta (nth m be r0) = false) /\ (forall j, j < m -> clt landelta (nth j be r0) = true) /\
      (forall i j, i < ncv -> j < ncv -> ent (tridiag al (tl be)) i j = if (i <? m) && (j <? m) then ent T i j else r0) /\
      nth 0 be r0 = r1 /\ (0 < m -> nth 1 be r0 *! nth 1 be r0 = ip init init /\ cpos (nth 1 be r0)) /\
      (0 < m -> nth (S m) kv vz = if reortho then A (nth m kv vz) else residual A kvm T).
  Proof.
    intros H. destruct (lanczos_parts H) as (th & U & Er & _). destruct (run_jinv herm Er) as (m & w & E & J & Hs & Hr).
    exists m. split; [exact E|]. split; [apply (ji_m J)|]. cbv zeta.
    split; [exact (kvm_len J)|]. split; [exact (kvm_fact J)|]. split; [exact (kvm_tri J)|]. split; [exact (kvm_herm J)|].
    split; [exact (kvm_span J)|]. split; [exact Hs|]. split; [exact Hr|]. split; [intros i j Hi Hj; exact (big_ent J Hi Hj)|].
    split; [exact (ji_b0 J)|]. split; [intros Hm; split; [apply (ji_span J Hm)|apply (ji_bep J); lia]|].
    intros Hm. rewrite (ji_next J). destruct reortho eqn:E'; [destruct m; [lia|reflexivity]|]. rewrite <- E' in J. symmetry. exact (kvm_res J Hm).
  Qed.

  (** every eigenvalue of the list but 0 belongs to a Ritz pair of the Krylov space *)
  Theorem jl_nonzero neig init vals vecs its kv al be m :
    jax_lanczos A eigh ncv landelta reortho neig init = Val (vals, vecs, its, (kv, al, be)) -> neig <= ncv -> its = S m ->
    let kvm := firstn m (tl kv) in let T := tridiag (firstn m al) (firstn m (tl be)) in
    length vals = neig /\ length vecs = neig /\
    forall j, j < neig -> nth j vals r0 <> r0 ->
      in_span kvm (nth j vecs vz) /\ ip (nth j vecs vz) (nth j vecs vz) = r1 /\
      exists c, cpos (r1 -! cj c *! c) /\ A (nth j vecs vz) = va (vs (nth j vals r0) (nth j vecs vz)) (vs c (residual A kvm T)).
  Proof.
    intros H Hn Ei kvm T. destruct (lanczos_parts H) as (th & U & Er & Ee & Ev & ->).
    destruct (run_jinv herm Er) as (m' & w & E & J & Hs & Hr). rewrite Ei in E. injection E as <-.
    assert (He : eigen_ok ncv (tridiag al (tl be)) (th, U)).
    { rewrite <- (big_len J). apply Heigh; [rewrite (big_len J); exact (big_herm J)|exact Ee]. }
    destruct He as (Lt & HT & HU & _ & _).
    assert (Lv : length vecs = neig).
    { destruct (Nat.eq_dec ncv 0) as [Z|N].
      - rewrite (normalised_len Ev). replace neig with 0 by lia. reflexivity.
      - rewrite (normalised_len Ev), vectors_eq, map_length, seq_length; [reflexivity|lia|exact (ji_kv J)]. }
    split; [rewrite firstn_length; lia|]. split; [exact Lv|]. intros j Hj Nz. rewrite first_nth in Nz |- * by exact Hj.
    assert (Hmn : m <= ncv) by apply (ji_m J).
    assert (Zero : forall i, m <= i -> i < ncv -> ent U i j = r0).
    { intros i Hi Hi'. specialize (HT i j Hi' ltac:(lia)).
      assert (E0 : nsum ncv (fun k => ent (tridiag al (tl be)) i k *! ent U k j) = r0).
      { rewrite <- (@nsum0 K ncv). apply nsum_ext. intros k Hk. rewrite (big_ent J) by assumption.
        replace (i <? m) with false by (symmetry; apply Nat.ltb_ge; exact Hi). cbn [andb]. ring. }
      rewrite E0 in HT. symmetry in HT. apply mul_eq0 in HT. destruct HT as [HT|HT]; [contradiction|exact HT]. }
    assert (Cut : forall g : nat -> K, (forall i, m <= i -> i < ncv -> g i = r0) -> nsum ncv g = nsum m g).
    { intros g Hg. clear - Hg Hmn. revert Hg. induction ncv as [|n IH]; intros Hg; [replace m with 0 by lia; reflexivity|].
      destruct (Nat.eq_dec m (S n)) as [->|N]; [reflexivity|]. rewrite nsum_S, Hg by lia. rewrite IH; [ring|lia|intros; apply Hg; lia]. }
    set (x := lin (fun i => ent U i j) kvm).
    assert (Lkv : length kvm = m) by exact (kvm_len J).
    pose proof (kvm_fact J) as Hf. fold kvm in Hf. fold T in Hf.
    assert (Ex : vsum ncv (fun i => vs (ent U i j) (nth (S i) kv vz)) = x).
    { unfold x, lin. rewrite Lkv. rewrite (vsum_cut (n := ncv) (m := m) Hmn).
      - apply vsum_ext. intros i Hi. unfold kvm. rewrite basis_nth by exact Hi. reflexivity.
      - intros i H1 H2. rewrite (Zero i H1 H2). apply vs_0. }
    assert (Ux : ip x x = r1).
    { unfold x. rewrite (lin_lin Hf), Lkv, <- Cut.
      - rewrite HU by lia. unfold delta_. rewrite Nat.eqb_refl. reflexivity.
      - intros i H1 H2. rewrite (Zero i H1 H2), cj_0. ring. }
    assert (Ei' : nth j vecs vz = x).
    { rewrite <- Ex. rewrite vectors_eq in Ev by (try lia; exact (ji_kv J)).
      assert (Ej : nth j (map (fun n => vsum ncv (fun m0 => vs (ent U m0 n) (nth (S m0) kv vz))) (seq 0 neig)) vz = vsum ncv (fun i => vs (ent U i j) (nth (S i) kv vz))).
      { rewrite (nth_indep _ vz (vsum ncv (fun m0 => vs (ent U m0 0) (nth (S m0) kv vz)))) by (rewrite map_length, seq_length; exact Hj).
        rewrite (map_nth (fun n => vsum ncv (fun m0 => vs (ent U m0 n) (nth (S m0) kv vz)))), seq_nth by exact Hj. reflexivity. }
      rewrite (normalised_nth Ev); [exact Ej|rewrite map_length, seq_length; exact Hj|]. rewrite Ej, Ex. exact Ux. }
    rewrite Ei'. split; [eexists; reflexivity|]. split; [exact Ux|].
    assert (Hm0 : 0 < m).
    { destruct m as [|m0]; [|lia]. exfalso. apply (@one_neq0 K). rewrite <- Ux. unfold x, lin. rewrite Lkv. unfold vsum. simpl. apply ip_0. }
    exists (ent U (m - 1) j). split.
    - assert (Es : r1 = nsum m (fun i => cj (ent U i j) *! ent U i j)).
      { rewrite <- Cut; [rewrite HU by lia; unfold delta_; rewrite Nat.eqb_refl; reflexivity|]. intros i H1 H2. rewrite (Zero i H1 H2), cj_0. ring. }
      rewrite Es. destruct m as [|m0]; [lia|]. rewrite nsum_S. replace (S m0 - 1) with m0 by lia.
      replace (nsum m0 (fun i => cj (ent U i j) *! ent U i j) +! cj (ent U m0 j) *! ent U m0 j -! cj (ent U m0 j) *! ent U m0 j)
        with (nsum m0 (fun i => cj (ent U i j) *! ent U i j)) by ring.
      unfold nsum. apply cpos_lsum. intros u _. apply cpos_sq.
    - unfold x at 1. rewrite (A_lin herm Hf) by lia. rewrite Lkv. f_equal. unfold x. rewrite lin_vs.
      unfold lin. rewrite Lkv. apply vsum_ext. intros i Hi. f_equal.
      rewrite <- (HT i j) by lia. rewrite (Cut (fun k => ent (tridiag al (tl be)) i k *! ent U k j)).
      + apply nsum_ext. intros k Hk. rewrite (big_ent J) by lia. replace (i <? m) with true by (symmetry; apply Nat.ltb_lt; exact Hi).
        replace (k <? m) with true by (symmetry; apply Nat.ltb_lt; exact Hk). reflexivity.
      + intros k H1 H2. rewrite (Zero k H1 H2). ring.
  Qed.

  (** all rounds done: Ritz pairs *)
  Theorem jl_ritz neig init vals vecs kv al be :
    jax_lanczos A eigh ncv landelta reortho neig init = Val (vals, vecs, S ncv, (kv, al, be)) -> neig <= ncv ->
    let kvm := firstn ncv (tl kv) in
    length vals = neig /\ ritz_pairs A kvm (residual A kvm (tridiag al (tl be))) vals vecs.
  Proof.
    intros H Hn kvm. destruct (jl_nonzero H Hn eq_refl) as (Lv & Lx & _). split; [exact Lv|].
    destruct (lanczos_parts H) as (th & U & Er & Ee & Ev & Eth).
    destruct (run_jinv herm Er) as (m' & w & E & J & _ & _). injection E as <-.
    assert (He : eigen_ok ncv (tridiag al (tl be)) (th, U)).
    { rewrite <- (big_len J). apply Heigh; [rewrite (big_len J); exact (big_herm J)|exact Ee]. }
    pose proof (kvm_fact J) as Hf. rewrite (big_full J) in Hf. fold kvm in Hf.
    assert (Lkv : length kvm = ncv) by exact (kvm_len J).
    destruct (Nat.eq_dec neig 0) as [Z|N].
    { subst neig. destruct vals; [|discriminate]. destruct vecs; [|discriminate]. constructor; simpl; intros; try lia. intros i j Hi. simpl in Hi. lia. }
    assert (Hnv : 0 < ncv) by lia. rewrite (vectors_eq _ _ Hnv (ji_kv J)) in Ev.
    assert (Em : map (fun n => vsum ncv (fun m => vs (ent U m n) (nth (S m) kv vz))) (seq 0 neig) = map (ritz kvm U) (seq 0 neig)).
    { apply map_ext. intros n. unfold ritz, lin. rewrite Lkv. apply vsum_ext. intros i Hi. unfold kvm. rewrite basis_nth by exact Hi. reflexivity. }
    rewrite Em in Ev. rewrite <- Lkv in He.
    apply normalised_ok in Ev.
    - rewrite Eth, Ev. apply (@ritz_ok K V A2 herm kvm (tridiag al (tl be)) th U Hf He neig); lia.
    - intros x Hx. apply in_map_iff in Hx. destruct Hx as (n & <- & Hx). apply in_seq in Hx.
      rewrite (ritz_on Hf He) by lia. unfold delta_. rewrite Nat.eqb_refl. reflexivity.
  Qed.

  Theorem jl_exact neig init vals vecs kv al be :
    jax_lanczos A eigh ncv landelta reortho neig init = Val (vals, vecs, S ncv, (kv, al, be)) -> neig <= ncv ->
    in_span (krylov A init ncv) (Nat.iter ncv A init) ->
    forall j, j < neig -> A (nth j vecs vz) = vs (nth j vals r0) (nth j vecs vz).
  Proof.
    intros H Hn Hin j Hj. destruct (jl_ritz H Hn) as [Lv Hr]. set (kvm := firstn ncv (tl kv)) in *.
    destruct (lanczos_parts H) as (th & U & Er & _). destruct (run_jinv herm Er) as (m' & w & E & J & _ & _). injection E as <-.
    assert (Lkv : length kvm = ncv) by exact (kvm_len J).
    pose proof (kvm_fact J) as Hf. rewrite (big_full J) in Hf. fold kvm in Hf. pose proof (kvm_span J) as Hs. fold kvm in Hs.
    assert (Hk : 0 < length kvm) by lia.
    assert (Lk : length (krylov A init ncv) = ncv) by (unfold krylov; rewrite map_length; apply seq_length).
    assert (Kn : forall i, i < ncv -> nth i (krylov A init ncv) vz = Nat.iter i A init).
    { intros i Hi. unfold krylov. rewrite (nth_indep _ vz (Nat.iter 0 A init)) by (rewrite map_length, seq_length; exact Hi).
      rewrite (map_nth (fun i => Nat.iter i A init)), seq_nth by exact Hi. reflexivity. }
    assert (E0 : residual A kvm (tridiag al (tl be)) = vz).
    { apply (residual_0 Hf Hk). apply Hs.
      assert (Hv : in_span (krylov A init ncv) (nth (length kvm - 1) kvm vz)).
      { apply Hs. change (spanf (length kvm) (fun i => nth i kvm vz) ((fun i => nth i kvm vz) (length kvm - 1))). apply spanf_in. lia. }
      change (spanf (length (krylov A init ncv)) (fun i => nth i (krylov A init ncv) vz) (A (nth (length kvm - 1) kvm vz))).
      change (spanf (length (krylov A init ncv)) (fun i => nth i (krylov A init ncv) vz) (nth (length kvm - 1) kvm vz)) in Hv.
      apply (A_spanf herm Hv). intros i Hi. rewrite Lk in Hi.
      rewrite (Kn i Hi). change (A (Nat.iter i A init)) with (Nat.iter (S i) A init).
      destruct (Nat.eq_dec (S i) ncv) as [Es|Ns]; [rewrite Es; exact Hin|].
      replace (Nat.iter (S i) A init) with (nth (S i) (krylov A init ncv) vz) by (apply Kn; lia).
      apply (@spanf_in K V (length (krylov A init ncv)) (fun i => nth i (krylov A init ncv) vz) (S i)). lia. }
    assert (Lx : j < length vecs) by (rewrite (rp_len Hr); lia).
    destruct (rp_eq Hr Lx) as (c & _ & Eq). rewrite Eq, E0, vs_z, va_z. reflexivity.
  Qed.

  (** ** a result for every initial state whose Krylov space is far enough from an invariant one *)
  Section Total.
    Variable init : V.
    Hypothesis Hsq : forall x : K, cpos x -> csqrt x <> None.
    Hypothesis Hd0 : cpos landelta.
    Hypothesis Hd1 : clt landelta r1 = true.
    Hypothesis Hi0 : forall n, csqrt (ip init init) = Some n -> clt landelta n = true.
    Hypothesis Hres : forall kv T n, 0 < length kv -> length kv < ncv -> factorised A kv T -> same_span kv (krylov A init (length kv)) ->
      csqrt (ip (residual A kv T) (residual A kv T)) = Some n -> clt landelta n = true.

    Lemma loop_total fuel : forall kv al be m w, jinv A ncv reortho init kv al be m w -> clt landelta (nth m be r0) = true -> m + fuel = ncv ->
      exists kv' al' be', jl_loop A ncv landelta reortho fuel kv al be (S m) = Val (kv', al', be', S ncv).
    Proof.
      clear Heigh. induction fuel as [|fuel IH]; intros kv al be m w J Hc Hf; cbn [jl_loop].
      - replace m with ncv by lia. eauto.
      - replace (S m - 1) with m by lia. rewrite Hc. replace (S m <=? ncv) with true by (symmetry; apply Nat.leb_le; lia). cbn [andb].
        assert (Hw : forall n, csqrt (ip w w) = Some n -> clt landelta n = true).
        { intros n En. destruct (Nat.eq_dec m 0) as [Z|N].
          - rewrite (ji_first J Z) in En. exact (Hi0 En).
          - assert (Hm : 0 < m) by lia. rewrite <- (kvm_res J Hm) in En. revert En. pose proof (kvm_len J) as L.
            apply Hres; [lia|lia|exact (kvm_fact J)|]. rewrite L. exact (kvm_span J). }
        destruct (csqrt (ip w w)) as [n|] eqn:En; [|exfalso; exact (Hsq (ip_pos w) En)].
        specialize (Hw n eq_refl).
        assert (Nz : n <> r0).
        { intros ->. apply clt_ok in Hw. destruct Hw as [H1 H2]. apply H2. apply cpos_anti; [exact Hd0|]. replace (cop landelta) with (r0 -! landelta) by ring. exact H1. }
        destruct (body_lanczos A reortho kv al be (S m)) as [[[[kv1 al1] be1] i1]| |] eqn:Eb.
        + destruct (body_ok herm J ltac:(lia) Eb) as (-> & w1 & J1 & _ & E1). cbn [obind]. apply (IH kv1 al1 be1 (S m) w1 J1); [|lia].
          rewrite En in E1. injection E1 as <-. exact Hw.
        + exfalso. unfold body_lanczos in Eb. replace (S m - 1) with m in Eb by lia. rewrite (ortho_next herm J) in Eb.
          unfold nrm in Eb. rewrite En in Eb. cbn [ofopt obind] in Eb. unfold vdiv in Eb. destruct (cdec n r0); [contradiction|discriminate].
        + exfalso. unfold body_lanczos in Eb. replace (S m - 1) with m in Eb by lia. rewrite (ortho_next herm J) in Eb.
          unfold nrm in Eb. rewrite En in Eb. cbn [ofopt obind] in Eb. unfold vdiv in Eb. destruct (cdec n r0); [contradiction|discriminate].
    Qed.
    Theorem jl_total neig : (forall m, length m = ncv -> hermitian_mx ncv m -> eigh m <> None) -> neig <= ncv ->
      exists vals vecs r, jax_lanczos A eigh ncv landelta reortho neig init = Val (vals, vecs, S ncv, r).
    Proof.
      intros Hg Hn. pose proof (jinv_0 A ncv reortho init) as J0.
      assert (Hc : clt landelta (nth 0 (put (repeat r0 (S ncv)) 0 r1) r0) = true) by (rewrite (ji_b0 J0); exact Hd1).
      destruct (loop_total (fuel := ncv) J0 Hc eq_refl) as (kv & al & be & Er).
      unfold jax_lanczos. change (jl_run A ncv landelta reortho init = Val (kv, al, be, S ncv)) in Er. rewrite Er. cbn [obind].
      destruct (run_jinv herm Er) as (m' & w & E & J & _ & _). injection E as <-.
      destruct (eigh (tridiag al (tl be))) as [[th U]|] eqn:Ee; [|exfalso; exact (Hg _ (big_len J) (big_herm J) Ee)]. cbn [ofopt obind fst snd].
      destruct (Nat.eq_dec ncv 0) as [Z|N].
      { replace neig with 0 by lia. unfold jl_vectors. simpl. eauto. }
      assert (Hnv : 0 < ncv) by lia. rewrite (vectors_eq _ _ Hnv (ji_kv J)).
      assert (He : eigen_ok ncv (tridiag al (tl be)) (th, U)).
      { rewrite <- (big_len J). apply Heigh; [rewrite (big_len J); exact (big_herm J)|exact Ee]. }
      pose proof (kvm_fact J) as Hf. rewrite (big_full J) in Hf. pose proof (kvm_len J) as Lkv. set (kvm := firstn ncv (tl kv)) in *.
      rewrite <- Lkv in He.
      rewrite normalised_total; [cbn [obind]; eauto|exact Hsq|].
      intros x Hx. apply in_map_iff in Hx. destruct Hx as (n & <- & Hx). apply in_seq in Hx.
      assert (Em : vsum ncv (fun m => vs (ent U m n) (nth (S m) kv vz)) = ritz kvm U n).
      { unfold ritz, lin. rewrite Lkv. apply vsum_ext. intros i Hi. unfold kvm. rewrite basis_nth by exact Hi. reflexivity. }
      rewrite Em, (ritz_on Hf He) by lia. unfold delta_. rewrite Nat.eqb_refl. reflexivity.
    Qed.
  End Total.
End Main.

(** ** [reorthogonalize] makes no difference in exact arithmetic when all rounds are done *)
Section Reortho.
  Context {K : cfd} {V : ips K}.
  Variable A : V -> V.
  Hypothesis herm : hermitian A.
  Variable eigh : mx K -> option (list K * mx K).
  Variables (ncv : nat) (landelta : K) (init : V).
  Definition agree (i : nat) (kv kv' : list V) : Prop := forall j, j < i -> nth j kv vz = nth j kv' vz.

  Lemma w_unique a b kv kv' al be m w w' : jinv A ncv a init kv al be m w -> jinv A ncv b init kv' al be m w' -> agree (S m) kv kv' -> w = w'.
  Proof.
    intros J J' Hg. destruct m as [|l]; [rewrite (ji_first J eq_refl), (ji_first J' eq_refl); reflexivity|].
    rewrite (li_res (ji_li J) eq_refl), (li_res (ji_li J') eq_refl). rewrite (Hg (S l)) by lia. f_equal.
    apply prev_ext. intros i Hi. rewrite (Hg (S i)) by lia. auto.
  Qed.
  Lemma loop_rel a b fuel : forall kv kv' al be m w kv1 al1 be1 i1, jinv A ncv a init kv al be m w -> jinv A ncv b init kv' al be m w ->
    agree (S m) kv kv' -> jl_loop A ncv landelta a fuel kv al be (S m) = Val (kv1, al1, be1, i1) ->
    exists kv1', jl_loop A ncv landelta b fuel kv' al be (S m) = Val (kv1', al1, be1, i1) /\ agree i1 kv1 kv1'.
  Proof.
    induction fuel as [|fuel IH]; intros kv kv' al be m w kv1 al1 be1 i1 J J' Hg H; cbn [jl_loop] in H |- *.
    - injection H as <- <- <- <-. exists kv'. auto.
    - destruct ((S m <=? ncv) && clt landelta (nth (S m - 1) be r0)) eqn:E; [|injection H as <- <- <- <-; exists kv'; auto].
      apply andb_true_iff in E. destruct E as [E _]. apply Nat.leb_le in E.
      apply obind_inv in H. destruct H as ([[[kv2 al2] be2] i2] & Eb & H).
      destruct (body_ok herm J E Eb) as (-> & w2 & J2 & _).
      assert (Eb' : exists kv2', body_lanczos A b kv' al be (S m) = Val (kv2', al2, be2, S (S m)) /\ agree (S (S m)) kv2 kv2').
      { unfold body_lanczos in Eb |- *. replace (S m - 1) with m in Eb |- * by lia. rewrite (ortho_next herm J) in Eb. rewrite (ortho_next herm J').
        apply obind_inv in Eb. destruct Eb as (n & -> & Eb). apply obind_inv in Eb. destruct Eb as (u & Eu & Eb). cbn [obind]. rewrite Eu. cbn [obind].
        injection Eb as <- <- <-. eexists. split; [reflexivity|]. intros j Hj. rewrite !put_nth, !put_length, (ji_kv J), (ji_kv J').
        replace (j =? S (S m)) with false by (symmetry; apply Nat.eqb_neq; lia). cbn [andb].
        destruct (j =? S m) eqn:Ej; cbn [andb]; [replace (j <? ncv + 2) with true by (symmetry; apply Nat.ltb_lt; lia); reflexivity|].
        apply Nat.eqb_neq in Ej. apply Hg. lia. }
      destruct Eb' as (kv2' & Eb' & Hg2). rewrite Eb'. cbn [obind].
      destruct (body_ok herm J' E Eb') as (_ & w2' & J2' & _). pose proof (w_unique J2 J2' Hg2) as <-.
      exact (IH kv2 kv2' al2 be2 (S m) w2 kv1 al1 be1 i1 J2 J2' Hg2 H).
  Qed.
  Theorem jl_reortho a b neig vals vecs kv al be :
    jax_lanczos A eigh ncv landelta a neig init = Val (vals, vecs, S ncv, (kv, al, be)) -> neig <= ncv ->
    exists kv', jax_lanczos A eigh ncv landelta b neig init = Val (vals, vecs, S ncv, (kv', al, be)) /\ firstn (S ncv) kv' = firstn (S ncv) kv.
  Proof.
    intros H Hn. destruct (lanczos_parts H) as (th & U & Er & Ee & Ev & Eth).
    destruct (run_jinv herm Er) as (m & w & E & J & _). injection E as <-.
    destruct (loop_rel (jinv_0 A ncv a init) (jinv_0 A ncv b init) (fun j _ => eq_refl) Er) as (kv' & Er' & Hg).
    change (jl_run A ncv landelta b init = Val (kv', al, be, S ncv)) in Er'.
    destruct (run_jinv herm Er') as (m & w' & E & J' & _). injection E as <-.
    exists kv'. split.
    - unfold jax_lanczos. rewrite Er'. cbn [obind]. rewrite Ee. cbn [ofopt obind fst snd].
      assert (Ex : jl_vectors ncv neig kv' U = jl_vectors ncv neig kv U).
      { destruct (Nat.eq_dec ncv 0) as [Z|N].
        - replace neig with 0 by lia. reflexivity.
        - assert (Hnv : 0 < ncv) by lia. rewrite (vectors_eq _ _ Hnv (ji_kv J)), (vectors_eq _ _ Hnv (ji_kv J')).
          apply map_ext. intros n. apply vsum_ext. intros i Hi. rewrite (Hg (S i)) by lia. reflexivity. }
      rewrite Ex, Ev. cbn [obind]. rewrite Eth. reflexivity.
    - apply nth_ext with (d := vz) (d' := vz); rewrite !firstn_length, (ji_kv J'); [rewrite (ji_kv J); reflexivity|].
      intros j Hj. rewrite !nth_first by lia. symmetry. apply Hg. lia.
  Qed.
End Reortho.

Theorem jl_reject {K : cfd} {V : ips K} (A : V -> V) eigh ncv landelta reortho numeig init :
  ncv < numeig \/ 1 < numeig /\ reortho = false -> jax_eigsh_lanczos A eigh ncv landelta reortho numeig init = Err.
Proof.
  intros H. unfold jax_eigsh_lanczos. destruct (ncv <? numeig) eqn:E; [reflexivity|]. apply Nat.ltb_ge in E.
  destruct H as [H|[H ->]]; [lia|]. replace (1 <? numeig) with true by (symmetry; apply Nat.ltb_lt; exact H). reflexivity.
Qed.
Theorem jl_accept {K : cfd} {V : ips K} (A : V -> V) eigh ncv landelta reortho numeig init vals vecs warn :
  jax_eigsh_lanczos A eigh ncv landelta reortho numeig init = Val (vals, vecs, warn) ->
  numeig <= ncv /\ (1 < numeig -> reortho = true) /\
  exists numits r, jax_lanczos A eigh ncv landelta reortho numeig init = Val (vals, vecs, numits, r) /\ (warn = true <-> numits < numeig).
Proof.
  intros H. unfold jax_eigsh_lanczos in H. destruct (ncv <? numeig) eqn:E; [discriminate|]. apply Nat.ltb_ge in E.
  destruct ((1 <? numeig) && negb reortho) eqn:E2; [discriminate|]. apply obind_inv in H. destruct H as ([[[vals0 vecs0] n] r] & Er & H).
  injection H as <- <- <-. split; [exact E|]. split.
  - intros H1. apply Nat.ltb_lt in H1. rewrite H1 in E2. destruct reortho; [reflexivity|discriminate].
  - exists n, r. split; [exact Er|]. apply Nat.ltb_lt.
Qed.

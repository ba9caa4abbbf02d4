(** * KrylovMain: [eigsh_lanczos] *)
From Coq Require Import Field.
From Verif Require Import Prelude Algebra Krylov KrylovFacts KrylovSpec KrylovLanczos KrylovRitz.
Set Implicit Arguments.
Unset Strict Implicit.

Section Main.
  Context {K : cfd} {V : ips K}.
  Add Field Kf : (cfth K).
  Variable A : V -> V * bool.
  Notation A1 := (fun x => fst (A x)).
  Hypothesis herm : hermitian A1.
  Hypothesis noalias : forall x, snd (A x) = false.
  Variable eigh : mx K -> option (list K * mx K).
  Hypothesis Heigh : eigh_contract eigh.
  Variables (numeig : nat) (tol delta : K) (ndiag : nat) (reortho : bool).
  Notation vn l := (fun i => nth i l vz).
  Notation kn l := (fun i => nth i l r0).

  Lemma expand_fold (u : mx K) n2 (kv : list V) : forall s st,
    fold_left (fun s p => va s (vs (ent u (fst p) n2) (snd p))) (combine (seq st (length kv)) kv) s =
    va s (vsum (length kv) (fun i => vs (ent u (st + i) n2) (nth i kv vz))).
  Proof.
    induction kv as [|v kv IH]; intros s st; [simpl; rewrite va_z; reflexivity|].
    cbn [length]. rewrite vsum_shift. cbn [seq combine fold_left fst snd nth]. rewrite IH, <- va_assoc, Nat.add_0_r.
    do 2 f_equal. apply vsum_ext. intros i Hi. rewrite Nat.add_succ_r. reflexivity.
  Qed.
  Lemma expand_lin (u : mx K) n2 (kv : list V) : expand kv u n2 = lin (fun i => ent u i n2) kv.
  Proof. unfold expand. rewrite expand_fold. rewrite va_comm, va_z. reflexivity. Qed.

  Section Vecs.
    Variables (kv : list V) (T : mx K) (th : list K) (U : mx K).
    Hypothesis Hf : factorised A1 kv T.
    Hypothesis He : eigen_ok (length kv) T (th, U).
    Lemma eigvecs_ok ns xs : (forall j, In j ns -> j < length kv) -> eigvecs kv U ns = Val xs -> xs = map (ritz kv U) ns.
    Proof.
      revert xs. induction ns as [|j ns IH]; intros xs Hn H; simpl in H; [injection H as <-; reflexivity|].
      apply obind_inv in H. destruct H as (n & En & H). apply obind_inv in H. destruct H as (x & Ex & H).
      apply obind_inv in H. destruct H as (ys & Ey & H). injection H as <-.
      rewrite (IH ys) by (try exact Ey; intros; apply Hn; right; assumption). simpl. f_equal.
      apply nrm_ok in En. destruct En as [En Pn]. apply vdiv_inv in Ex. destruct Ex as [Nz ->].
      rewrite expand_lin in En |- *. fold (ritz kv U j) in En |- *.
      rewrite (ritz_on Hf He) in En by (apply Hn; left; reflexivity). unfold delta_ in En. rewrite Nat.eqb_refl in En.
      rewrite (sqrt1 En Pn). replace (cinv r1) with (r1 : K) by (field; apply one_neq0). apply vs_1.
    Qed.
    Lemma eigvecs_total ns : (forall x : K, cpos x -> csqrt x <> None) -> (forall j, In j ns -> j < length kv) ->
      exists xs, eigvecs kv U ns = Val xs.
    Proof.
      intros Hs. induction ns as [|j ns IH]; intros Hn; [eexists; reflexivity|].
      destruct IH as [xs Exs]; [intros; apply Hn; right; assumption|]. simpl.
      assert (Ei : ip (expand kv U j) (expand kv U j) = r1).
      { rewrite expand_lin. fold (ritz kv U j). rewrite (ritz_on Hf He) by (apply Hn; left; reflexivity).
        unfold delta_. rewrite Nat.eqb_refl. reflexivity. }
      unfold nrm. rewrite Ei. destruct (csqrt r1) as [n|] eqn:En; [|exfalso; exact (Hs _ cpos_1 En)]. simpl.
      apply csqrt_ok in En. destruct En as [En Pn]. rewrite (sqrt1 En Pn). unfold vdiv.
      destruct (cdec r1 r0) as [E|_]; [exfalso; exact (one_neq0 E)|]. simpl. rewrite Exs. eexists. reflexivity.
    Qed.
    Lemma map_ritz_nth m j : j < m -> nth j (map (ritz kv U) (seq 0 m)) vz = ritz kv U j.
    Proof.
      intros Hj. rewrite (nth_indep _ vz (ritz kv U 0)) by (rewrite map_length, seq_length; exact Hj).
      rewrite (map_nth (ritz kv U)), seq_nth by exact Hj. reflexivity.
    Qed.
    Lemma ritz_ok m : m <= length kv -> 0 < m ->
      ritz_pairs A1 kv (residual A1 kv T) (firstn m th) (map (ritz kv U) (seq 0 m)).
    Proof.
      intros Hm H0.
      assert (Lx : length (map (ritz kv U) (seq 0 m)) = m) by (rewrite map_length; apply seq_length).
      assert (Lt : length th = length kv) by apply He.
      assert (Et : forall j, j < m -> nth j (firstn m th) r0 = nth j th r0).
      { intros j Hj. rewrite <- (firstn_skipn m th) at 2. rewrite app_nth1; [reflexivity|]. rewrite firstn_length. lia. }
      constructor; rewrite ?Lx.
      - rewrite firstn_length. lia.
      - intros i j Hi Hj. rewrite Lx in Hi, Hj. rewrite !map_ritz_nth by assumption. apply (ritz_on Hf He); lia.
      - intros j Hj. rewrite map_ritz_nth by exact Hj. eexists. reflexivity.
      - intros j Hj. rewrite map_ritz_nth, Et by exact Hj. eexists.
        split; [apply (last_bound (kv := kv) He (j := j)); lia|]. apply (ritz_eigen herm Hf He). lia.
      - intros i j Hi Hj. rewrite !map_ritz_nth, Et by assumption. apply (ritz_ray herm Hf He); lia.
      - intros j y Hj [c ->] Hp. rewrite Et by exact Hj. apply (ritz_min herm Hf He); [lia|].
        intros i Hi. specialize (Hp i Hi). rewrite map_ritz_nth in Hp by lia. exact Hp.
    Qed.
  End Vecs.

  Lemma linv_0 v d o w : linv A1 0 v d o w.
  Proof. constructor; intros; lia. Qed.

  Theorem lanczos_ok ncv init vals vecs w0 kv dg nr e :
    lanczos A eigh numeig tol delta ndiag reortho ncv init = Val (vals, vecs, w0, (kv, dg, nr, e)) ->
    let T := tridiag dg nr in
    factorised A1 kv T /\ tridiagonal (length kv) T /\ hermitian_mx (length kv) T /\
    same_span kv (krylov A1 init (length kv)) /\
    length kv <= ncv /\ (e = Exhausted -> length kv = ncv) /\
    (e = Invariant -> 0 < length kv -> exists n, csqrt (ip (residual A1 kv T) (residual A1 kv T)) = Some n /\ clt n delta = true) /\
    length vals = Nat.min numeig (length kv) /\ ritz_pairs A1 kv (residual A1 kv T) vals vecs.
  Proof.
    intros H T. unfold lanczos in H. destruct (ncv <? numeig) eqn:G1; [discriminate|].
    destruct ((1 <? numeig) && negb reortho) eqn:G2; [discriminate|].
    apply obind_inv in H. destruct H as (z & Ez & H). apply obind_inv in H. destruct H as (w & Ew & H).
    apply obind_inv in H. destruct H as ([[[kv0 dg0] nr0] e0] & El & H).
    apply obind_inv in H. destruct H as ([th U] & Ee & H). apply obind_inv in H. destruct H as (xs & Ex & H).
    injection H as <- <- <- -> -> -> ->.
    apply nrm_ok in Ez. destruct Ez as [Ez Pz]. apply vdiv_inv in Ew. destruct Ew as [Nz Ew].
    apply (loop_ok herm noalias) in El; try reflexivity; [|apply linv_0].
    destruct El as (k & w' & L1 & L2 & L3 & Hi & B1 & B2 & B3 & _ & B5 & _). subst k.
    pose proof (linv_factorised herm L2 Hi) as Hf. fold T in Hf.
    assert (Hh : hermitian_mx (length kv) T).
    { rewrite <- L2. apply tri_herm.
      - exact (reals L2 Hi).
      - exact (diag_real herm L2 Hi). }
    assert (Lt : length (tridiag dg nr) = length kv) by (unfold tridiag; rewrite mkmx_length; exact L2).
    assert (He : eigen_ok (length kv) T (th, U)).
    { rewrite <- Lt. apply Heigh; [fold T in Lt; rewrite Lt; exact Hh|]. unfold ofopt in Ee. fold T in Ee. destruct (eigh T); congruence. }
    assert (Lth : length th = length kv) by apply He.
    cbn [fst snd] in Ex. rewrite Lth in Ex.
    apply (eigvecs_ok Hf He) in Ex; [|intros j Hj; apply in_seq in Hj; lia].
    split; [exact Hf|]. split; [rewrite <- L2; apply tri_tri; exact (reals L2 Hi)|]. split; [exact Hh|].
    split.
    { destruct (Nat.eq_dec (length kv) 0) as [E0|N0].
      - apply (linv_span herm L2 Hi (a := r1)); [apply one_neq0|lia].
      - destruct (B5 eq_refl ltac:(lia)) as (n & _ & _ & Nn & E).
        apply (linv_span herm L2 Hi (a := cinv n *! cinv z)).
        + intros Q. apply mul_eq0 in Q. assert (Hinv : forall x : K, x <> r0 -> cinv x <> r0).
          { intros x Hx Q'. apply (@one_neq0 K). transitivity (cinv x *! x); [symmetry; exact (cinv_l Hx)|rewrite Q'; ring]. }
          destruct Q as [Q|Q]; [apply (Hinv n Nn Q)|apply (Hinv z Nz Q)].
        + intros _. rewrite E, Ew, vs_mul. reflexivity. }
    split; [lia|]. split; [intros E; rewrite (B2 E); lia|].
    split. { intros E Hk. destruct (B3 E) as (n & E1 & E2). exists n. split; [|exact E2].
      unfold T. rewrite (linv_residual L2 Hi Hk). exact E1. }
    split; [cbn [fst]; rewrite firstn_length, Lth; reflexivity|]. cbn [fst].
    set (m := Nat.min numeig (length kv)) in *.
    assert (Em : firstn numeig th = firstn m th).
    { unfold m. rewrite <- Lth. destruct (Nat.le_ge_cases numeig (length th)) as [Hl|Hl].
      - rewrite Nat.min_l by exact Hl. reflexivity.
      - rewrite Nat.min_r by exact Hl. transitivity th; [apply firstn_all2; exact Hl|symmetry; apply firstn_all]. }
    rewrite Em, Ex. destruct (Nat.eq_dec m 0) as [E0|N0].
    - rewrite E0. simpl. constructor; simpl; intros; try lia. intros i j Hi' Hj'. simpl in Hi'. lia.
    - apply ritz_ok; try assumption; unfold m in *; lia.
  Qed.

  (** exact when the Krylov space is invariant *)
  Theorem lanczos_exact ncv init vals vecs w0 kv dg nr e :
    lanczos A eigh numeig tol delta ndiag reortho ncv init = Val (vals, vecs, w0, (kv, dg, nr, e)) ->
    0 < length kv -> in_span (krylov A1 init (length kv)) (Nat.iter (length kv) A1 init) ->
    forall j, j < length vecs -> A1 (nth j vecs vz) = vs (nth j vals r0) (nth j vecs vz).
  Proof.
    intros H Hk Hin j Hj. destruct (lanczos_ok H) as (Hf & _ & _ & Hs & _ & _ & _ & _ & Hr).
    assert (Lk : length (krylov A1 init (length kv)) = length kv) by (unfold krylov; rewrite map_length; apply seq_length).
    assert (E : residual A1 kv (tridiag dg nr) = vz).
    { apply (residual_0 Hf Hk). apply Hs.
      assert (Hv : in_span (krylov A1 init (length kv)) (nth (length kv - 1) kv vz)).
      { apply Hs. change (spanf (length kv) (fun i => nth i kv vz) ((fun i => nth i kv vz) (length kv - 1))). apply spanf_in. lia. }
      change (spanf (length (krylov A1 init (length kv))) (fun i => nth i (krylov A1 init (length kv)) vz) (nth (length kv - 1) kv vz)) in Hv.
      change (spanf (length (krylov A1 init (length kv))) (fun i => nth i (krylov A1 init (length kv)) vz) (A1 (nth (length kv - 1) kv vz))).
      apply (A_spanf herm Hv). rewrite Lk. intros i Hi. rewrite krylov_nth by exact Hi.
      change (fst (A (Nat.iter i A1 init))) with (Nat.iter (S i) A1 init).
      destruct (Nat.eq_dec (S i) (length kv)) as [Ei|Ei].
      - rewrite Ei. rewrite <- Lk at 1. exact Hin.
      - rewrite <- (@krylov_nth K V A1 kv (S i) init) by lia.
        exact (@spanf_in K V (length kv) (fun l => nth l (krylov A1 init (length kv)) vz) (S i) ltac:(lia)). }
    destruct (rp_eq Hr Hj) as (c & _ & Hc). rewrite Hc, E. apply vec_ext. intros z. rewrite ip_add, !ip_vs, ip_0. ring.
  Qed.

  (** explicit reorthogonalisation changes nothing in exact arithmetic *)
  Lemma loop_same fuel : forall m kv dg nr old w,
    length kv = m -> length dg = m -> length nr = m -> linv A1 m (vn kv) (kn dg) (kn nr) w ->
    lanczos_loop A eigh numeig tol delta ndiag true fuel m kv dg nr old w =
    lanczos_loop A eigh numeig tol delta ndiag false fuel m kv dg nr old w.
  Proof.
    induction fuel as [|fuel IH]; intros m kv dg nr old w Lk Ld Ln Hi; [reflexivity|].
    cbn [lanczos_loop]. destruct (nrm w) as [n| |] eqn:En; try reflexivity. cbn [obind].
    destruct (clt n delta); [reflexivity|]. destruct (vdiv w n) as [u| |] eqn:Eu; try reflexivity. cbn [obind].
    destruct (nrm_ok En) as [Hn Pn]. destruct (vdiv_inv Eu) as [Nz Hu].
    assert (Ev : fold_left gs1 kv u = u).
    { apply gs_id. intros v Hv. apply In_nth with (d := vz) in Hv. destruct Hv as (i & Hl & <-).
      rewrite Hu, ip_vs, (linv_orth herm Hi) by lia. ring. }
    rewrite Ev. set (a := ip u (fst (A u))).
    match goal with |- obind ?x _ = obind ?x _ => destruct x as [[c old']| |]; try reflexivity end. cbn [obind].
    destruct c; [reflexivity|]. rewrite noalias.
    assert (Ew : (if 0 <? m then vsub (vsub (fst (A u)) (vs a u)) (vs n (last kv vz)) else vsub (fst (A u)) (vs a u))
                 = vsub (vsub (A1 u) (vs a u)) (prev (vn (kv ++ [u])) (kn (nr ++ [n])) m)).
    { destruct m as [|l].
      - simpl. apply vec_ext. intros z. rewrite (ip_sub z _ vz), ip_0. ring.
      - change (0 <? S l) with true. cbv iota. unfold prev. f_equal.
        rewrite last_nth, Lk, app_nth2, Ln, Nat.sub_diag, app_nth1 by lia. simpl. rewrite Nat.sub_0_r. reflexivity. }
    rewrite Ew. apply IH; try (rewrite app_length; simpl; lia).
    assert (Ea : nth m (dg ++ [a]) r0 = a) by (rewrite app_nth2, Ld, Nat.sub_diag by lia; reflexivity).
    replace (vs a u) with (vs (nth m (dg ++ [a]) r0) u) by (rewrite Ea; reflexivity).
    apply (linv_step (A := A1) (v := vn (kv ++ [u])) (d := kn (dg ++ [a])) (o := kn (nr ++ [n])) herm (w := w) (n := n)).
    - revert Hi. apply linv_ext. intros i Hl. rewrite !app_nth1 by lia. repeat split.
    - rewrite app_nth2, Lk, Nat.sub_diag by lia. reflexivity.
    - exact Hu.
    - exact Ea.
    - rewrite app_nth2, Ln, Nat.sub_diag by lia. reflexivity.
    - exact Hn.
    - apply cpos_real, Pn.
    - exact Nz.
  Qed.
  Theorem lanczos_reortho ncv init : numeig <= 1 ->
    lanczos A eigh numeig tol delta ndiag true ncv init = lanczos A eigh numeig tol delta ndiag false ncv init.
  Proof.
    intros Hn. unfold lanczos. replace (1 <? numeig) with false by (symmetry; apply Nat.ltb_ge; exact Hn). cbn [andb].
    destruct (ncv <? numeig); [reflexivity|]. destruct (nrm init) as [z| |]; try reflexivity. cbn [obind].
    destruct (vdiv init z) as [w| |]; try reflexivity. cbn [obind].
    rewrite (@loop_same ncv 0 [] [] [] None w); try reflexivity. apply linv_0.
  Qed.

  (** a result is returned whenever the arguments are accepted, the initial vector is not 0, delta > 0,
      and square roots and eigendecompositions exist *)
  Hypothesis Hs : forall x : K, cpos x -> csqrt x <> None.
  Variable ncv : nat.
  Hypothesis Hg : forall m, length m <= ncv -> hermitian_mx (length m) m -> eigh m <> None.
  Hypothesis Hd : clt r0 delta = true.
  Hypothesis Hnd : ndiag <> 0.

  Lemma nrm_total (x : V) : exists n, nrm x = Val n.
  Proof.
    unfold nrm. destruct (csqrt (ip x x)) as [n|] eqn:E; [exists n; reflexivity|]. exfalso. exact (Hs (ip_pos x) E).
  Qed.
  Lemma loop_total fuel : forall m kv dg nr old w,
    m + fuel <= ncv ->
    length kv = m -> length dg = m -> length nr = m -> linv A1 m (vn kv) (kn dg) (kn nr) w ->
    exists r, lanczos_loop A eigh numeig tol delta ndiag reortho fuel m kv dg nr old w = Val r.
  Proof.
    induction fuel as [|fuel IH]; intros m kv dg nr old w Hle Lk Ld Ln Hi; [eexists; reflexivity|].
    cbn [lanczos_loop]. destruct (nrm_total w) as [n En]. rewrite En. cbn [obind].
    destruct (clt n delta) eqn:Es; [eexists; reflexivity|].
    assert (Nz : n <> r0) by (intros ->; congruence).
    assert (Eu : vdiv w n = Val (vs (cinv n) w)) by (unfold vdiv; destruct (cdec n r0); [contradiction|reflexivity]).
    rewrite Eu. cbn [obind]. set (u := vs (cinv n) w) in *. destruct (nrm_ok En) as [Hn Pn].
    assert (Ev : (if reortho then fold_left gs1 kv u else u) = u).
    { destruct reortho; [|reflexivity]. apply gs_id. intros v Hv. apply In_nth with (d := vz) in Hv. destruct Hv as (i & Hl & <-).
      unfold u. rewrite ip_vs, (linv_orth herm Hi) by lia. ring. }
    rewrite Ev. set (a := ip u (fst (A u))).
    assert (St : linv A1 (S m) (vn (kv ++ [u])) (kn (dg ++ [a])) (kn (nr ++ [n]))
                     (vsub (vsub (A1 u) (vs a u)) (prev (vn (kv ++ [u])) (kn (nr ++ [n])) m))).
    { assert (Ea : nth m (dg ++ [a]) r0 = a) by (rewrite app_nth2, Ld, Nat.sub_diag by lia; reflexivity).
      replace (vs a u) with (vs (nth m (dg ++ [a]) r0) u) by (rewrite Ea; reflexivity).
      apply (linv_step (A := A1) (v := vn (kv ++ [u])) (d := kn (dg ++ [a])) (o := kn (nr ++ [n])) herm (w := w) (n := n)).
      - revert Hi. apply linv_ext. intros i Hl. rewrite !app_nth1 by lia. repeat split.
      - rewrite app_nth2, Lk, Nat.sub_diag by lia. reflexivity.
      - reflexivity.
      - exact Ea.
      - rewrite app_nth2, Ln, Nat.sub_diag by lia. reflexivity.
      - exact Hn.
      - apply cpos_real, Pn.
      - exact Nz. }
    match goal with |- exists r, obind ?x _ = _ => assert (Ex : exists co, x = Val co) end.
    { destruct (0 <? m); [|eexists; reflexivity]. destruct (Nat.eqb_spec ndiag 0) as [|_]; [contradiction|].
      destruct ((m mod ndiag =? 0) && (numeig <=? length (dg ++ [a]))); [|eexists; reflexivity].
      assert (Hlt : length (tridiag (dg ++ [a]) (nr ++ [n])) <= ncv).
      { unfold tridiag. rewrite mkmx_length, app_length. simpl. lia. }
      assert (Hh : hermitian_mx (length (tridiag (dg ++ [a]) (nr ++ [n]))) (tridiag (dg ++ [a]) (nr ++ [n]))).
      { assert (L2 : length (dg ++ [a]) = length (kv ++ [u])) by (rewrite !app_length; simpl; lia).
        assert (Lt : length (tridiag (dg ++ [a]) (nr ++ [n])) = length (dg ++ [a])) by (unfold tridiag; apply mkmx_length).
        rewrite Lt. assert (Lm : S m = length (kv ++ [u])) by (rewrite app_length; simpl; lia). rewrite Lm in St.
        apply tri_herm; [exact (reals L2 St)|exact (diag_real herm L2 St)]. }
      destruct (eigh (tridiag (dg ++ [a]) (nr ++ [n]))) as [eu|] eqn:Ee; [|exfalso; exact (Hg Hlt Hh Ee)].
      cbn [ofopt obind]. destruct old as [o|]; [|eexists; reflexivity]. unfold close.
      match goal with |- context [csqrt ?x] => destruct (csqrt x) as [y|] eqn:Ey end; [eexists; reflexivity|].
      exfalso. revert Ey. apply Hs. apply cpos_lsum. intros p _. apply cpos_sq. }
    destruct Ex as [[c old'] ->]. cbn [obind]. destruct c; [eexists; reflexivity|]. rewrite noalias.
    assert (Ew : (if 0 <? m then vsub (vsub (fst (A u)) (vs a u)) (vs n (last kv vz)) else vsub (fst (A u)) (vs a u))
                 = vsub (vsub (A1 u) (vs a u)) (prev (vn (kv ++ [u])) (kn (nr ++ [n])) m)).
    { destruct m as [|l].
      - simpl. apply vec_ext. intros z. rewrite (ip_sub z _ vz), ip_0. ring.
      - change (0 <? S l) with true. cbv iota. unfold prev. f_equal.
        rewrite last_nth, Lk, app_nth2, Ln, Nat.sub_diag, app_nth1 by lia. simpl. rewrite Nat.sub_0_r. reflexivity. }
    rewrite Ew. apply IH; try (rewrite app_length; simpl; lia); [lia|exact St].
  Qed.
  Theorem lanczos_total init : numeig <= ncv -> (1 < numeig -> reortho = true) -> init <> vz ->
    exists r, lanczos A eigh numeig tol delta ndiag reortho ncv init = Val r.
  Proof.
    intros G1 G2 Hn. unfold lanczos. replace (ncv <? numeig) with false by (symmetry; apply Nat.ltb_ge; exact G1).
    assert (E2 : (1 <? numeig) && negb reortho = false).
    { destruct (Nat.ltb_spec 1 numeig) as [Hl|Hl]; [rewrite (G2 Hl)|]; reflexivity. }
    rewrite E2. destruct (nrm_total init) as [z Ez]. rewrite Ez. cbn [obind].
    assert (Nz : z <> r0).
    { intros ->. apply Hn, ip_def. apply nrm_ok in Ez. rewrite <- (proj1 Ez). ring. }
    unfold vdiv at 1. destruct (cdec z r0) as [|_]; [contradiction|]. cbn [obind]. set (w := vs (cinv z) init).
    destruct (@loop_total ncv 0 [] [] [] None w) as [[[[kv dg] nr] e] El]; try reflexivity; try lia; [apply linv_0|].
    rewrite El. cbn [obind]. apply (loop_ok herm noalias) in El; try reflexivity; [|apply linv_0].
    destruct El as (k & w' & L1 & L2 & L3 & Hi & B1 & _). subst k.
    pose proof (linv_factorised herm L2 Hi) as Hf.
    assert (Lt : length (tridiag dg nr) = length kv) by (unfold tridiag; rewrite mkmx_length; exact L2).
    assert (Hh : hermitian_mx (length (tridiag dg nr)) (tridiag dg nr)).
    { rewrite Lt, <- L2. apply tri_herm; [exact (reals L2 Hi)|exact (diag_real herm L2 Hi)]. }
    destruct (eigh (tridiag dg nr)) as [[th U]|] eqn:Ee; [|exfalso; refine (Hg _ Hh Ee); lia]. cbn [ofopt obind fst snd].
    pose proof (Heigh Hh Ee) as He. rewrite Lt in He.
    destruct (@eigvecs_total kv (tridiag dg nr) th U Hf He (seq 0 (Nat.min numeig (length th))) Hs) as [xs Ex].
    { intros j Hj. apply in_seq in Hj. destruct He as [Hl _]. lia. }
    rewrite Ex. eexists. reflexivity.
  Qed.
End Main.

(** the two argument checks *)
Lemma lanczos_reject (K : cfd) (V : ips K) A eigh numeig (tol delta : K) ndiag reortho ncv (init : V) :
  ncv < numeig \/ 1 < numeig /\ reortho = false -> lanczos A eigh numeig tol delta ndiag reortho ncv init = Err.
Proof.
  intros H. unfold lanczos. destruct (Nat.ltb_spec ncv numeig) as [|Hl]; [reflexivity|].
  destruct H as [H|[H ->]]; [lia|]. replace (1 <? numeig) with true by (symmetry; apply Nat.ltb_lt; exact H). reflexivity.
Qed.

(** * QuantumOps: adjoint, product, tensor product, partial trace *)
From Verif Require Import Prelude Algebra Tensor TensorFacts Einsum EinsumFacts NetworkFacts Graph GraphBase GraphConnect GraphContract GraphOps GraphValue GraphLaws GraphJoin GraphQuery GraphQueryFacts GraphCopy GraphCopyFacts GraphDensity Quantum QuantumSpec QuantumFacts QuantumNodes QuantumCopy QuantumJoin QuantumUnion.
Set Implicit Arguments.
Unset Strict Implicit.

Section QO.
  Context {R : cjr}.
  Notation st := (@st R).
  Variable iter : list nat -> list nat.
  Hypothesis iter_perm : forall l, Permutation (iter l) l.
  Implicit Types (s : st) (q A B : quop) (e f : eid) (n m : nid).
  Add Ring Rqo : (rsr R).

  Lemma in_out q e : In e (q_out q) -> In e (q_edges q).
  Proof. intros H. unfold q_edges. apply in_or_app. left. exact H. Qed.
  Lemma in_in q e : In e (q_in q) -> In e (q_edges q).
  Proof. intros H. unfold q_edges. apply in_or_app. right. apply in_or_app. left. exact H. Qed.
  Lemma in_ign q e : In e (q_ign q) -> In e (q_edges q).
  Proof. intros H. unfold q_edges. apply in_or_app. right. apply in_or_app. right. exact H. Qed.

  Lemma made_trans s s1 s2 q ns : wf s -> kept s s1 -> made s1 s2 q ns -> made s s2 q ns.
  Proof.
    intros W K Md. split; [apply (md_wf Md)|apply (kept_trans K (md_kept Md))| |apply (md_oper Md)].
    intros n Hn Q. apply (md_fresh Md Hn), (kept_node K Q).
  Qed.
  Lemma cloned_made conj s s' q q' ns Ns : cloned conj s s' q q' ns Ns -> made s s' q' Ns.
  Proof. intros C. split; [apply (cl_wf C)|apply (cl_kept C)|apply (cl_fresh C)|apply (cl_oper C)]. Qed.
  Lemma made_rows s s' q : wf s -> wf s' -> kept s s' -> forall ns, oper s q ns -> rows s' q = rows s q /\ cols s' q = cols s q /\ map (edim s') (q_ign q) = map (edim s) (q_ign q).
  Proof.
    intros W W' K ns O. assert (forall e, In e (q_edges q) -> edim s' e = edim s e) as H by (intros e He; destruct (oper_edge_on O He) as (n & _ & Ho); apply (kept_edim W W' K Ho)).
    unfold rows, cols. repeat split; apply map_ext_in; intros e He; apply H; [apply in_out|apply in_in|apply in_ign]; exact He.
  Qed.

  (** ** adjoint *)
  Definition swap q : quop := Qu (q_in q) (q_out q) (q_ref q) (q_ign q) (q_cps q).
  Lemma swap_edges q : Permutation (q_edges q) (q_edges (swap q)).
  Proof. unfold q_edges, swap. cbn. rewrite !app_assoc. apply Permutation_app_tail, Permutation_app_comm. Qed.
  Lemma swap_oper s q ns : oper s q ns -> oper s (swap q) ns.
  Proof.
    intros O. split; try apply O.
    - intros m. rewrite (op_nodes O). split; intros (n & Hn & K); exists n; (split; [|exact K]); (destruct Hn as [(e & He & Ho)|Hn]; [left; exists e; split; [|exact Ho]|right; exact Hn]);
        cbn in *; rewrite in_app_iff in *; tauto.
    - apply (Permutation_NoDup (swap_edges q)), (op_edges O).
    - intros e. rewrite <- (Permutation_in' eq_refl (swap_edges q)). apply (op_open O).
  Qed.

  Theorem adjoint_ok s q ns : wf s -> oper s q ns -> copyable s q ->
    exists s' q' Ns, adjoint iter q s = (s', Some q') /\ made s s' q' Ns /\ copyable s' q' /\
      rows s' q' = cols s q /\ cols s' q' = rows s q /\ map (edim s') (q_ign q') = map (edim s) (q_ign q) /\
      (forall i j g, length i = length (q_out q) -> length j = length (q_in q) -> length g = length (q_ign q) ->
        entry s' Ns q' j i g = cj (entry s ns q i j g)).
  Proof.
    intros W O K. destruct (q_copy_ok iter_perm true W O K) as (s' & d & ee & Ns & H & C & _ & He & Hd & _).
    pose proof (swap_oper (cl_oper C)) as O'. exists s', (swap (image d ee q)), Ns. split.
    { unfold adjoint, bind. rewrite H. cbn [fst snd].
      rewrite !mmap_look by (intros; (apply He || apply Hd); auto using in_out, in_in, in_ign). apply (construct_ok iter_perm (cl_wf C) O'). }
    split; [destruct (cloned_made C); split; auto|]. split; [apply (cl_copyable C)|]. split; [apply (cl_cols C)|]. split; [apply (cl_rows C)|]. split; [apply (cl_igns C)|].
    intros i j g Hi Hj Hg. change (cj (entry s ns q i j g)) with (cjv true (entry s ns q i j g)). rewrite <- (cl_entry C (i := i) (j := j) (g := g)) by assumption.
    destruct (@entry_exists _ s' (image d ee q) Ns i j g (cl_wf C) (cl_oper C)) as (a & A1 & A2 & A3 & ->); [cbn; rewrite map_length; assumption..|].
    apply (entry_asg (cl_wf C) O'); assumption.
  Qed.

  (** ** two copies *)
  Lemma two_copies s A B nA nB : wf s -> oper s A nA -> oper s B nB -> copyable s A -> copyable s B ->
    exists s1 s2 d1 ee1 d2 ee2 N1 N2, q_copy iter A false s = (s1, Some (d1, ee1)) /\ q_copy iter B false s1 = (s2, Some (d2, ee2)) /\
      let q1 := image d1 ee1 A in let q2 := image d2 ee2 B in
      wf s2 /\ kept s s2 /\ oper s2 q1 N1 /\ oper s2 q2 N2 /\ copyable s2 q1 /\ copyable s2 q2 /\ fresh_nodes s (N1 ++ N2) /\ (forall n, In n N1 -> ~ In n N2) /\
      (forall e, In e (q_edges A) -> exists f, dget ee1 e = Some f) /\ (forall e, In e (q_edges B) -> exists f, dget ee2 e = Some f) /\
      (forall N, In N (map snd d1 ++ map snd d2) <-> In N (N1 ++ N2)) /\
      rows s2 q1 = rows s A /\ cols s2 q1 = cols s A /\ rows s2 q2 = rows s B /\ cols s2 q2 = cols s B /\
      (forall i j g, length i = length (q_out A) -> length j = length (q_in A) -> length g = length (q_ign A) -> entry s2 N1 q1 i j g = entry s nA A i j g) /\
      (forall i j g, length i = length (q_out B) -> length j = length (q_in B) -> length g = length (q_ign B) -> entry s2 N2 q2 i j g = entry s nB B i j g).
  Proof.
    intros W OA OB KA KB. destruct (q_copy_ok iter_perm false W OA KA) as (s1 & d1 & ee1 & N1 & H1 & C1 & _ & He1 & _ & Hn1 & _).
    pose proof (kept_oper (cl_kept C1) OB) as OB1. pose proof (kept_copyable (cl_kept C1) OB KB) as KB1.
    destruct (q_copy_ok iter_perm false (cl_wf C1) OB1 KB1) as (s2 & d2 & ee2 & N2 & H2 & C2 & _ & He2 & _ & Hn2 & _).
    pose proof (kept_oper (cl_kept C2) (cl_oper C1)) as O1.
    destruct (made_rows W (cl_wf C1) (cl_kept C1) OB) as (RB & CB & _).
    destruct (made_rows (cl_wf C1) (cl_wf C2) (cl_kept C2) (cl_oper C1)) as (R1 & Cc1 & _).
    exists s1, s2, d1, ee1, d2, ee2, N1, N2. split; [exact H1|]. split; [exact H2|]. cbn zeta.
    split; [apply (cl_wf C2)|]. split; [apply (kept_trans (cl_kept C1) (cl_kept C2))|]. split; [exact O1|]. split; [apply (cl_oper C2)|].
    split; [apply (kept_copyable (cl_kept C2) (cl_oper C1) (cl_copyable C1))|]. split; [apply (cl_copyable C2)|]. split.
    { intros n Hn Q. apply in_app_or in Hn. destruct Hn as [Hn|Hn]; [apply (cl_fresh C1 Hn Q)|]. apply (cl_fresh C2 Hn), (kept_node (cl_kept C1) Q). }
    split. { intros n Hn Q. apply (cl_fresh C2 Q), (op_node (cl_oper C1) Hn). }
    split; [exact He1|]. split; [exact He2|]. split; [intros N; rewrite !in_app_iff, Hn1, Hn2; reflexivity|].
    split; [rewrite R1; apply (cl_rows C1)|]. split; [rewrite Cc1; apply (cl_cols C1)|]. split; [rewrite (cl_rows C2); exact RB|]. split; [rewrite (cl_cols C2); exact CB|]. split.
    - intros i j g Hi Hj Hg. rewrite (kept_entry i j g (cl_wf C1) (cl_wf C2) (cl_kept C2) (cl_oper C1)). apply (cl_entry C1 Hi Hj Hg).
    - intros i j g Hi Hj Hg. rewrite (cl_entry C2 Hi Hj Hg). change (entry s1 nB B i j g = entry s nB B i j g). apply (kept_entry i j g W (cl_wf C1) (cl_kept C1) OB).
  Qed.

  (** ** tensor product *)
  Theorem tensor_product_ok s A B nA nB : wf s -> oper s A nA -> oper s B nB -> copyable s A -> copyable s B ->
    exists s' C nC, tensor_product iter A B s = (s', Some C) /\ made s s' C nC /\ copyable s' C /\
      rows s' C = rows s A ++ rows s B /\ cols s' C = cols s A ++ cols s B /\ length (q_ign C) = length (q_ign A) + length (q_ign B) /\
      (forall i k j l g h, length i = length (q_out A) -> length j = length (q_in A) -> length g = length (q_ign A) ->
        length k = length (q_out B) -> length l = length (q_in B) -> length h = length (q_ign B) ->
        entry s' nC C (i ++ k) (j ++ l) (g ++ h) = entry s nA A i j g *! entry s nB B k l h).
  Proof.
    intros W OA OB KA KB. destruct (two_copies W OA OB KA KB) as (s1 & s2 & d1 & ee1 & d2 & ee2 & N1 & N2 & H1 & H2 & W2 & Kp & O1 & O2 & K1 & K2 & F & D & E1 & E2 & Hr & R1 & C1 & R2 & C2 & V1 & V2).
    pose proof (beside_oper O1 O2 D Hr) as O.
    exists s2, (beside (image d1 ee1 A) (image d2 ee2 B) (map snd d1 ++ map snd d2)), (N1 ++ N2). split.
    { unfold tensor_product, bind. rewrite H1, H2. cbn [fst snd].
      rewrite !mmap_look by (intros; (apply E1 || apply E2); auto using in_out, in_in, in_ign). apply (construct_ok iter_perm W2 O). }
    split; [split; auto|]. split; [apply beside_copyable; assumption|].
    split; [unfold rows in *; cbn [beside q_out]; rewrite map_app; f_equal; assumption|].
    split; [unfold cols in *; cbn [beside q_in]; rewrite map_app; f_equal; assumption|].
    split; [cbn; rewrite app_length, !map_length; reflexivity|].
    intros i k j l g h Hi Hj Hg Hk Hl Hh.
    assert (exists a, map a (q_out (image d1 ee1 A)) = i /\ map a (q_out (image d2 ee2 B)) = k /\ map a (q_in (image d1 ee1 A)) = j /\ map a (q_in (image d2 ee2 B)) = l /\
      map a (q_ign (image d1 ee1 A)) = g /\ map a (q_ign (image d2 ee2 B)) = h /\ entry s2 (N1 ++ N2) (beside (image d1 ee1 A) (image d2 ee2 B) (map snd d1 ++ map snd d2)) (i ++ k) (j ++ l) (g ++ h) = netval s2 (N1 ++ N2) a)
      as (a & A1 & A2 & A3 & A4 & A5 & A6 & ->).
    { destruct (@entry_exists _ s2 _ (N1 ++ N2) (i ++ k) (j ++ l) (g ++ h) W2 O) as (a & B1 & B2 & B3 & B4); [cbn; rewrite !app_length, !map_length; lia..|].
      exists a. cbn [beside q_out q_in q_ign] in B1, B2, B3. rewrite map_app in B1, B2, B3.
      assert (forall (l1 l2 m1 m2 : list nat), length l1 = length m1 -> l1 ++ l2 = m1 ++ m2 -> l1 = m1 /\ l2 = m2) as App.
      { clear. induction l1 as [|x l1 IH]; intros l2 [|y m1] m2 HL E; try discriminate; [auto|]. cbn in E. injection E as -> E.
        destruct (IH l2 m1 m2) as [-> ->]; [injection HL as HL; exact HL|exact E|auto]. }
      apply App in B1; [|cbn; rewrite !map_length; congruence]. apply App in B2; [|cbn; rewrite !map_length; congruence]. apply App in B3; [|cbn; rewrite !map_length; congruence].
      destruct B1, B2, B3. auto 10. }
    rewrite (beside_value O1 D). rewrite <- V1, <- V2 by assumption. f_equal; symmetry; apply entry_asg; assumption.
  Qed.

  (** ** products *)
  Lemma binds_pair (a : nat -> nat) es fs vs : NoDup (es ++ fs) -> length vs = length es -> length fs = length es ->
    let b := binds Nat.eq_dec (binds Nat.eq_dec a fs vs) es vs in
    map b es = vs /\ map b fs = vs /\ forall x, ~ In x (es ++ fs) -> b x = a x.
  Proof.
    intros ND HL HL'. apply NoDup_app_iff in ND. destruct ND as (N1 & N2 & D). cbn zeta. split; [apply map_binds; auto|]. split.
    - transitivity (map (binds Nat.eq_dec a fs vs) fs); [|apply map_binds; [exact N2|congruence]]. apply map_ext_in. intros x Hx. apply binds_other. intros K. apply (D x K Hx).
    - intros x Hx. rewrite !binds_other; [reflexivity| |]; intros K; apply Hx, in_or_app; auto.
  Qed.

  Lemma Forall2_all (P : nat -> nat -> Prop) l : forall l', length l = length l' -> (forall x y, In x l -> In y l' -> P x y) -> Forall2 P l l'.
  Proof.
    induction l as [|x l IH]; intros [|y l'] HL Q; try discriminate; constructor; [apply Q; left; reflexivity|].
    apply IH; [injection HL as HL; exact HL|]. intros u v Hu Hv. apply Q; right; assumption.
  Qed.
  Lemma perm_join (o1 o2 i1 i2 g : list nat) : Permutation ((o1 ++ o2) ++ (i1 ++ i2) ++ g) ((o1 ++ i2 ++ g) ++ i1 ++ o2).
  Proof.
    rewrite <- !app_assoc. apply Permutation_app_head.
    rewrite (Permutation_app_comm o2). rewrite <- !app_assoc. rewrite (Permutation_app_comm i1). rewrite <- !app_assoc.
    apply Permutation_app_head, Permutation_app_head, Permutation_app_comm.
  Qed.

  Theorem matmul_ok s A B nA nB : wf s -> oper s A nA -> oper s B nB -> copyable s A -> copyable s B -> cols s A = rows s B ->
    exists s' C nC, matmul iter A B s = (s', Some C) /\ made s s' C nC /\ copyable s' C /\
      rows s' C = rows s A /\ cols s' C = cols s B /\ length (q_ign C) = length (q_ign A) + length (q_ign B) /\
      (forall i k g h, length i = length (q_out A) -> length g = length (q_ign A) -> length k = length (q_in B) -> length h = length (q_ign B) ->
        entry s' nC C i k (g ++ h) = lsum (idxs (cols s A)) (fun j => entry s nA A i j g *! entry s nB B j k h)).
  Proof.
    intros W OA OB KA KB Hsp. destruct (two_copies W OA OB KA KB) as (s1 & s2 & d1 & ee1 & d2 & ee2 & N1 & N2 & H1 & H2 & W2 & Kp & O1 & O2 & K1 & K2 & F & D & E1 & E2 & Hr & R1 & C1 & R2 & C2 & V1 & V2).
    set (q1 := image d1 ee1 A) in *. set (q2 := image d2 ee2 B) in *. set (ref := map snd d1 ++ map snd d2) in *.
    pose proof (beside_oper O1 O2 D Hr) as O. set (T := beside q1 q2 ref) in *.
    set (es := q_in q1). set (fs := q_out q2).
    set (C := Qu (q_out q1) (q_in q2) ref (q_ign q1 ++ q_ign q2) (q_cps q1 ++ q_cps q2)).
    assert (Permutation (q_edges T) (q_edges C ++ es ++ fs)) as P.
    { apply perm_join. }
    assert (NoDup (es ++ fs)) as ND.
    { pose proof (Permutation_NoDup P (op_edges O)) as Q. apply NoDup_app_iff in Q. apply Q. }
    assert (forall x, In x (es ++ fs) -> In x (q_edges T)) as Hin.
    { intros x Hx. apply (Permutation_in _ (Permutation_sym P)), in_or_app. right. exact Hx. }
    assert (forall x, In x (q_edges C) -> In x (q_edges T) /\ ~ In x (es ++ fs)) as HinC.
    { intros x Hx. split; [apply (Permutation_in _ (Permutation_sym P)), in_or_app; left; exact Hx|].
      pose proof (Permutation_NoDup P (op_edges O)) as Q. apply NoDup_app_iff in Q. destruct Q as (_ & _ & Q). apply Q, Hx. }
    assert (forall x, In x (es ++ fs) -> loose s2 (N1 ++ N2) x) as HL.
    { intros x Hx. apply Hin, (op_open O) in Hx. destruct Hx as (n & Hn & Ho). pose proof Ho as (k & Hk & Hu). exists (n, k). split; [exact Hn|]. split; [exact Hk|].
      destruct (wf_slot W2 Hk) as (ed & Hed & Hdis & Hi & _). rewrite Hed. destruct (kinds W2 (ex_intro _ k Hk) Hed) as [(Z1 & Z2 & _)|(m & a2 & _ & _ & _ & _ & Z & _)]; [|destruct (Z n Ho)].
      unfold ends in Hi. rewrite Z1 in Hi. destruct Hi as [Hi|[]]. injection Hi as Hi1 Hi2. destruct ed as [x1 x2 x3 x4]. cbn in *. congruence. }
    assert (map (edim s2) es = map (edim s2) fs) as Hdim.
    { change (cols s2 q1 = rows s2 q2). rewrite C1, R2. exact Hsp. }
    destruct (@connects_ok _ es fs s2 W2 ND) as (s3 & H3 & J).
    { intros x Hx. destruct (HL x Hx) as (p & _ & Q1 & Q2). eauto. }
    { apply dims_Forall2, Hdim. }
    assert (oper s3 C (N1 ++ N2)) as OC.
    { apply (join_oper W2 O J Hin P); [exact Hr|]. apply (op_cps O). }
    pose proof (join_kept W2 O J Hin Kp F) as K3.
    exists s3, C, (N1 ++ N2). split.
    { unfold matmul, bind. rewrite check_spaces_ok; [|exact W| |unfold cols, rows in Hsp; exact Hsp].
      2:{ intros e He. apply in_app_or in He. destruct He as [He|He]; [destruct (oper_edge_on OA (in_in He)) as (n & _ & Q)|destruct (oper_edge_on OB (in_out He)) as (n & _ & Q)]; eauto. }
      rewrite H1, H2. cbn [fst snd]. rewrite join_edges_ok by (intros; (apply E1 || apply E2); auto using in_out, in_in).
      change (map (edict ee1) (q_in A)) with es. change (map (edict ee2) (q_out B)) with fs. rewrite H3.
      rewrite !mmap_look by (intros; (apply E1 || apply E2); auto using in_out, in_in, in_ign). apply (construct_ok iter_perm (jn_wf J) OC). }
    split; [split; auto; apply (jn_wf J)|]. split.
    { apply (join_copyable W2 O J Hin (q' := C)); [reflexivity|apply beside_copyable; assumption|].
      assert (forall x y, In x es -> In y fs -> forall n i j, In n (q_cps T) -> slot s2 (n, i) = Some x -> slot s2 (n, j) = Some y -> i < j) as Q.
      { intros x y Hx Hy n i j _ Hi Hj. exfalso. apply in_in, (op_open O1) in Hx. apply in_out, (op_open O2) in Hy.
        destruct Hx as (m & Hm & k & _ & Hu), Hy as (m' & Hm' & k' & _ & Hu'). pose proof (Hu _ Hi) as Q1. pose proof (Hu' _ Hj) as Q2. injection Q1 as -> _. injection Q2 as -> _. apply (D m' Hm Hm'). }
      assert (length es = length fs) as HLen by (rewrite <- (map_length (edim s2) es), Hdim, map_length; reflexivity).
      exact (Forall2_all HLen Q). }
    assert (forall x, In x (q_edges C) -> edim s3 x = edim s2 x) as Hed.
    { intros x Hx. destruct (HinC x Hx) as [Q1 Q2]. apply (join_edim W2 O J Hin Q1 Q2). }
    split. { rewrite <- R1. unfold rows. apply map_ext_in. intros x Hx. apply Hed, in_out, Hx. }
    split. { rewrite <- C2. unfold cols. apply map_ext_in. intros x Hx. apply Hed, in_in, Hx. }
    split; [cbn; rewrite app_length, !map_length; reflexivity|].
    intros i k g h Hi Hg Hk Hh.
    destruct (@entry_exists _ s3 C (N1 ++ N2) i k (g ++ h) (jn_wf J) OC) as (a & A1 & A2 & A3 & ->); [cbn; rewrite ?app_length, !map_length; lia..|].
    rewrite (jn_val J); [|apply (op_nodup O)|exact HL].
    replace (map (edim s2) es) with (cols s A) by (rewrite <- C1; reflexivity).
    apply lsum_ext. intros vs Hvs. apply In_idxs in Hvs. pose proof (valid_length Hvs) as HLv. unfold cols in HLv. rewrite map_length in HLv.
    assert (length es = length fs) as HLen by (rewrite <- (map_length (edim s2) es), Hdim, map_length; reflexivity).
    assert (length (q_in A) = length es) as HLA by (unfold es, q1; cbn; rewrite map_length; reflexivity).
    destruct (@binds_pair a es fs vs ND) as (B1 & B2 & B3); [congruence|congruence|]. set (b := binds Nat.eq_dec (binds Nat.eq_dec a fs vs) es vs) in *.
    cbn [C q_ign] in A3. rewrite map_app in A3.
    assert (map a (q_ign q1) = g /\ map a (q_ign q2) = h) as [A4 A5].
    { assert (forall (l1 l2 m1 m2 : list nat), length l1 = length m1 -> l1 ++ l2 = m1 ++ m2 -> l1 = m1 /\ l2 = m2) as App.
      { clear. induction l1 as [|x l1 IH]; intros l2 [|y m1] m2 HL E; try discriminate; [auto|]. cbn in E. injection E as -> E.
        destruct (IH l2 m1 m2) as [-> ->]; [injection HL as HL; exact HL|exact E|auto]. }
      apply App in A3; [exact A3|]. cbn. rewrite !map_length. congruence. }
    assert (forall l, (forall x, In x l -> In x (q_edges C)) -> map b l = map a l) as Hb.
    { intros l Hl. apply map_ext_in. intros x Hx. apply B3. apply (HinC x (Hl x Hx)). }
    rewrite (beside_value O1 D). rewrite <- V1, <- V2 by (try assumption; unfold es, fs, q1, q2 in *; cbn in *; rewrite ?map_length in *; congruence). f_equal; symmetry; apply entry_asg; auto.
    - rewrite Hb; [exact A1|]. intros x Hx. apply in_out, Hx.
    - rewrite Hb; [exact A4|]. intros x Hx. apply in_ign. cbn. apply in_or_app. left. exact Hx.
    - rewrite Hb; [exact A2|]. intros x Hx. apply in_in, Hx.
    - rewrite Hb; [exact A5|]. intros x Hx. apply in_ign. cbn. apply in_or_app. right. exact Hx.
  Qed.
  Theorem matmul_reject s A B nA nB : wf s -> oper s A nA -> oper s B nB -> cols s A <> rows s B -> matmul iter A B s = (s, None).
  Proof.
    intros W OA OB H. unfold matmul, bind. rewrite check_spaces_bad; auto.
    intros e He. apply in_app_or in He. destruct He as [He|He]; [destruct (oper_edge_on OA (in_in He)) as (n & _ & Q)|destruct (oper_edge_on OB (in_out He)) as (n & _ & Q)]; eauto.
  Qed.
End QO.

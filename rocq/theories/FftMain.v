(** * FftMain: the kernel of the network is the kernel of the discrete Fourier transform *)
From Coq Require Import Permutation List Lia.
From Verif Require Import Prelude Algebra Tensor TensorFacts Einsum EinsumFacts NetworkFacts Graph GraphBase GraphConnect GraphContract GraphOps GraphValue GraphLaws GraphJoin GraphQuery GraphQueryFacts GraphCopy GraphCopyFacts GraphDensity Quantum QuantumSpec QuantumFacts QuantumJoin QuantumMake Stitch Fft FftStitch FftSpec FftFacts DecompFacts.
Import ListNotations.
Set Implicit Arguments.
Unset Strict Implicit.

Section FM.
  Context {R : cjr}.
  Notation st := (@st R).
  Implicit Types (s : st).
  Notation "x +! y" := (radd x y) (at level 50, left associativity).
  Notation "x *! y" := (rmul x y) (at level 40, left associativity).
  Add Ring Rfm : (rsr R).

  Lemma rpow_add (x : R) a b : rpow x (a + b) = rpow x a *! rpow x b.
  Proof. induction a as [|a IH]; cbn; [ring|]. rewrite IH. ring. Qed.
  Lemma rpow_r1 k : rpow (r1 : R) k = r1.
  Proof. induction k as [|k IH]; cbn; [reflexivity|]. rewrite IH. ring. Qed.
  Lemma rpow_mul (x : R) a b : rpow x (a * b) = rpow (rpow x a) b.
  Proof. rewrite Nat.mul_comm. induction b as [|b IH]; cbn; [reflexivity|]. rewrite rpow_add, IH. reflexivity. Qed.
  Lemma lprod_mul A (l : list A) (f g : A -> R) : lprod l (fun x => f x *! g x) = lprod l f *! lprod l g.
  Proof. induction l as [|x l IH]; rewrite ?lprod_nil, ?lprod_cons; [ring|]. rewrite IH. ring. Qed.
  Lemma lprod_const A (l : list A) (c : R) : lprod l (fun _ => c) = rpow c (length l).
  Proof. induction l as [|x l IH]; [reflexivity|]. rewrite lprod_cons, IH. reflexivity. Qed.
  Lemma lprod_head n (f : nat -> R) : lprod (seq 0 (S n)) f = f 0 *! lprod (seq 0 n) (fun k => f (S k)).
  Proof. cbn [seq]. rewrite lprod_cons, <- seq_shift, lprod_map. reflexivity. Qed.
  Lemma lprod_last n (f : nat -> R) : lprod (seq 0 (S n)) f = lprod (seq 0 n) f *! f n.
  Proof. rewrite seq_S, lprod_app, lprod_cons, lprod_nil. cbn. ring. Qed.
  Lemma lprod_rev n (f : nat -> R) : lprod (seq 0 n) (fun l => f (n - 1 - l)) = lprod (seq 0 n) f.
  Proof.
    induction n as [|n IH]; [reflexivity|]. rewrite lprod_head, lprod_last. replace (S n - 1 - 0) with n by lia.
    rewrite (@lprod_ext R _ _ _ (fun k => f (n - 1 - k))) by (intros k _; f_equal; lia). rewrite IH. ring.
  Qed.
  Lemma nprod2 n : nprod (repeat 2 n) = 2 ^ n.
  Proof. induction n as [|n IH]; [reflexivity|]. cbn [repeat nprod fold_right]. change (fold_right Nat.mul 1 (repeat 2 n)) with (nprod (repeat 2 n)). rewrite IH. reflexivity. Qed.

  Lemma ravel_pow (w : R) xs : forall n m, length xs = n -> rpow w (ravel (repeat 2 n) xs * m) = lprod (seq 0 n) (fun k => rpow w (nth k xs 0 * 2 ^ (n - 1 - k) * m)).
  Proof.
    induction xs as [|x xs IH]; intros n m <-; [reflexivity|]. cbn [length repeat ravel]. rewrite nprod2, Nat.mul_add_distr_r, rpow_add, lprod_head. f_equal.
    - cbn [nth]. f_equal. f_equal. f_equal. f_equal. lia.
    - rewrite (IH (length xs) m eq_refl). apply lprod_ext. intros k Hk. cbn [nth]. f_equal. f_equal. f_equal. f_equal. lia.
  Qed.
  Lemma ravel_pow_rev (w : R) zs n m : length zs = n -> rpow w (ravel (repeat 2 n) zs * m) = lprod (seq 0 n) (fun l => rpow w (nth l (rev zs) 0 * 2 ^ l * m)).
  Proof.
    intros Hl. rewrite (ravel_pow w m Hl), <- (lprod_rev n (fun l => rpow w (nth l (rev zs) 0 * 2 ^ l * m))). apply lprod_ext. intros k Hk. apply in_seq in Hk.
    rewrite rev_nth by lia. f_equal. f_equal. f_equal. f_equal. lia.
  Qed.

  Variables (h : R) (ph : nat -> R).

  Definition cfac (xs ys : list nat) (k : nat) : R := h *! lprod (seq 0 (S k)) (fun j => rpow (ph j) (nth k xs 0 * nth (k - j) ys 0)).

  Section Roots.
    Variable n : nat.
    Hypothesis Hm1 : r1 +! ph 0 = r0.
    Hypothesis Hsq : forall p, S p < n -> ph (S p) *! ph (S p) = ph p.
    Let om := ph (n - 1).

    Lemma ph_pow m : m < n -> ph (n - 1 - m) = rpow om (2 ^ m).
    Proof.
      induction m as [|m IH]; intros Hm; [cbn; rewrite Nat.sub_0_r; fold om; ring|].
      replace (2 ^ S m) with (2 ^ m + 2 ^ m) by (cbn; lia). rewrite rpow_add, <- IH by lia.
      replace (n - 1 - m) with (S (n - 1 - S m)) by lia. symmetry. apply Hsq. lia.
    Qed.
    Lemma ph_pow' j : j < n -> ph j = rpow om (2 ^ (n - 1 - j)).
    Proof. intros Hj. rewrite <- ph_pow by lia. f_equal. lia. Qed.
    Lemma minus_one_sq : ph 0 *! ph 0 = r1.
    Proof.
      assert (ph 0 *! (r1 +! ph 0) = r0) as Q by (rewrite Hm1; ring).
      transitivity ((r1 +! ph 0) +! ph 0 *! ph 0); [rewrite Hm1; ring|]. transitivity (r1 +! ph 0 *! (r1 +! ph 0)); [ring|]. rewrite Q. ring.
    Qed.
    Lemma om_one : 0 < n -> rpow om (2 ^ n) = r1.
    Proof.
      intros Hn. replace (2 ^ n) with (2 ^ (n - 1) + 2 ^ (n - 1)) by (destruct n; [lia|]; cbn; rewrite Nat.sub_0_r; lia).
      rewrite rpow_add. replace (2 ^ (n - 1)) with (2 ^ (n - 1 - 0)) by (f_equal; lia). rewrite <- ph_pow' by lia. apply minus_one_sq.
    Qed.

    Lemma kernel_dft xs zs : length xs = n -> length zs = n -> lprod (seq 0 n) (cfac xs (rev zs)) = rpow h n *! rpow om (ravel (repeat 2 n) xs * ravel (repeat 2 n) zs).
    Proof.
      intros Lx Lz. unfold cfac. rewrite lprod_mul, lprod_const, seq_length. f_equal.
      rewrite (ravel_pow om _ Lx). apply lprod_ext. intros k Hk. apply in_seq in Hk.
      rewrite (Nat.mul_comm _ (ravel _ zs)), (ravel_pow_rev om _ Lz).
      assert (seq 0 n = seq 0 (S k) ++ seq (0 + S k) (n - S k)) as Es by (rewrite <- seq_app; f_equal; lia). rewrite Es, lprod_app.
      assert (lprod (seq (0 + S k) (n - S k)) (fun l => rpow om (nth l (rev zs) 0 * 2 ^ l * (nth k xs 0 * 2 ^ (n - 1 - k)))) = r1) as ->.
      { rewrite (@lprod_ext R _ _ _ (fun _ => r1)); [rewrite lprod_const; apply rpow_r1|]. intros l Hl. apply in_seq in Hl.
        replace (nth l (rev zs) 0 * 2 ^ l * (nth k xs 0 * 2 ^ (n - 1 - k))) with (2 ^ n * (2 ^ (l - S k) * (nth l (rev zs) 0 * nth k xs 0))).
        - rewrite rpow_mul, om_one by lia. apply rpow_r1.
        - assert (2 ^ l * 2 ^ (n - 1 - k) = 2 ^ n * 2 ^ (l - S k)) as Q by (rewrite <- !Nat.pow_add_r; f_equal; lia).
          transitivity ((2 ^ n * 2 ^ (l - S k)) * (nth l (rev zs) 0 * nth k xs 0)); [lia|]. rewrite <- Q. lia. }
      transitivity (lprod (seq 0 (S k)) (fun l => rpow om (nth l (rev zs) 0 * 2 ^ l * (nth k xs 0 * 2 ^ (n - 1 - k))))); [|ring].
      rewrite <- (lprod_rev (S k)). apply lprod_ext. intros j Hj. apply in_seq in Hj. replace (S k - 1 - j) with (k - j) by lia.
      rewrite (ph_pow' (j := k - j)) by lia. replace (k - (k - j)) with j by lia. rewrite <- rpow_mul. f_equal.
      assert (2 ^ j * 2 ^ (n - 1 - k) = 2 ^ (n - 1 - (k - j))) as Q by (rewrite <- Nat.pow_add_r; f_equal; lia). rewrite <- Q. lia.
    Qed.
  End Roots.

  (** ** the kernel after the first i steps *)
  Fixpoint agree (ks xs ys : list nat) : R := match ks with [] => r1 | k :: ks' => if nth k xs 0 =? nth k ys 0 then agree ks' xs ys else r0 end.
  Definition kern (n i : nat) (xs ys : list nat) : R := lprod (seq 0 i) (cfac xs ys) *! agree (seq i (n - i)) xs ys.

  Lemma agree_ext ks xs ys ys' : (forall k, In k ks -> nth k ys 0 = nth k ys' 0) -> agree ks xs ys = agree ks xs ys'.
  Proof. induction ks as [|k ks IH]; intros H; cbn; [reflexivity|]. rewrite (H k (or_introl eq_refl)), IH by (intros; apply H; right; assumption). reflexivity. Qed.
  Lemma agree_same ks xs : agree ks xs xs = r1.
  Proof. induction ks as [|k ks IH]; cbn; [reflexivity|]. rewrite Nat.eqb_refl. exact IH. Qed.
  Lemma agree_diff ks xs ys k : In k ks -> nth k xs 0 <> nth k ys 0 -> agree ks xs ys = r0.
  Proof. induction ks as [|q ks IH]; intros Hk Hd; [destruct Hk|]. cbn. destruct (Nat.eqb_spec (nth q xs 0) (nth q ys 0)) as [E|]; [|reflexivity]. destruct Hk as [<-|Hk]; [contradiction|]. apply IH; assumption. Qed.
  Lemma cfac_ext xs ys ys' k : (forall j, j <= k -> nth j ys 0 = nth j ys' 0) -> cfac xs ys k = cfac xs ys' k.
  Proof. intros H. unfold cfac. f_equal. apply lprod_ext. intros j Hj. rewrite H by lia. reflexivity. Qed.

  Lemma nth_eq_list (l l' : list nat) n : length l = n -> length l' = n -> (forall j, j < n -> nth j l 0 = nth j l' 0) -> l = l'.
  Proof. intros L1 L2 H. apply (nth_ext _ _ 0 0); [congruence|]. intros j Hj. apply H. congruence. Qed.

  Lemma cz_kernel n (K : list nat -> R) ys i j p : bitl n ys -> i < n -> j < n -> i <> j ->
    lsum (idxs [2; 2]) (fun vs => K (puts ys [j; i] vs) *! elt (cz ph p) (vs ++ [nth j ys 0; nth i ys 0])) = K ys *! rpow (ph p) (nth i ys 0 * nth j ys 0).
  Proof.
    intros [Ly By] Hi Hj Hij. pose proof (By i Hi) as B1. pose proof (By j Hj) as B2.
    assert (puts ys [j; i] [nth j ys 0; nth i ys 0] = ys) as E.
    { apply (@nth_eq_list _ _ n); [rewrite puts_length; exact Ly|exact Ly|]. intros k Hk. cbn [puts].
      rewrite nth_replace by (rewrite replace_nth_length; lia). destruct (Nat.eqb_spec k i) as [->|]; [reflexivity|].
      rewrite nth_replace by lia. destruct (Nat.eqb_spec k j) as [->|]; reflexivity. }
    transitivity (K (puts ys [j; i] [nth j ys 0; nth i ys 0]) *! rpow (ph p) (nth i ys 0 * nth j ys 0)); [clear E|rewrite E; reflexivity].
    change (idxs [2; 2]) with [[0; 0]; [0; 1]; [1; 0]; [1; 1]]. rewrite !lsum_cons, lsum_nil.
    destruct (nth i ys 0) as [|[|]]; [| |lia]; (destruct (nth j ys 0) as [|[|]]; [| |lia]); cbn -[puts]; ring.
  Qed.
  Lemma hadamard_kernel n (K : list nat -> R) ys i : bitl n ys -> i < n ->
    lsum (idxs [2]) (fun vs => K (puts ys [i] vs) *! elt (hadamard h ph) (vs ++ [nth i ys 0])) =
    nsum 2 (fun v => K (replace_nth i v ys) *! (h *! rpow (ph 0) (v * nth i ys 0))).
  Proof.
    intros [Ly By] Hi. pose proof (By i Hi) as B1. change (idxs [2]) with [[0]; [1]]. unfold nsum. cbn [seq]. rewrite !lsum_cons, !lsum_nil.
    destruct (nth i ys 0) as [|[|]]; [| |lia]; cbn -[replace_nth]; ring.
  Qed.

  Section Run.
    Variables (s0 : st) (ns0 : list nid) (inputs : list eid).
    Hypothesis W0 : wf s0.
    Hypothesis LV0 : live s0 ns0.
    Hypothesis Q0 : qubits s0 ns0 inputs.
    Let n := length inputs.
    Notation inv := (inv s0 ns0 inputs).

    Lemma twiddles_ok i js : i < n -> (forall j, In j js -> 1 <= j <= i) -> forall s ns state K, inv s ns state K ->
      exists s' new state', twiddles ph i js state s = (s', Some state') /\ (forall m, In m new -> ~ is_node s0 m) /\
        inv s' (ns ++ new) state' (fun xs ys => K xs ys *! lprod js (fun j => rpow (ph j) (nth i ys 0 * nth (i - j) ys 0))).
    Proof.
      intros Hi. induction js as [|j js IH]; intros Hjs s ns state K I.
      { exists s, [], state. split; [reflexivity|]. split; [intros m []|]. rewrite app_nil_r. apply (inv_ext I). intros xs ys _ _. rewrite lprod_nil. ring. }
      destruct (Hjs j (or_introl eq_refl)) as [J1 J2].
      destruct (@inv_step R s0 ns0 inputs s ns state K [i - j; i] (cz ph j) W0 LV0 (proj1 Q0) I) as (s1 & m & state1 & H1 & F1 & I1).
      { repeat constructor; cbn; [lia|tauto]. }
      { intros k [<-|[<-|[]]]; fold n; lia. }
      { reflexivity. }
      destruct (IH ltac:(intros k Hk; apply Hjs; right; exact Hk) _ _ _ _ I1) as (s2 & new & state2 & H2 & F2 & I2).
      exists s2, (m :: new), state2. split; [cbn [twiddles]; unfold bind; rewrite H1; exact H2|]. split.
      - intros q [<-|Hq]; [intros Hq; apply F1, (iv_nodes I), Hq|apply F2, Hq].
      - rewrite <- app_assoc in I2. apply (inv_ext I2). intros xs ys Bx By. rewrite lprod_cons.
        pose proof (@cz_kernel n (K xs) ys i (i - j) j By Hi ltac:(lia) ltac:(lia)) as Q. cbn [map length repeat] in *. rewrite Q. ring.
    Qed.

    Lemma mixes_ok k : forall i s ns state, i + k = n -> inv s ns state (kern n i) ->
      exists s' new state', mixes h ph (seq i k) state s = (s', Some state') /\ (forall m, In m new -> ~ is_node s0 m) /\ inv s' (ns ++ new) state' (kern n n).
    Proof.
      induction k as [|k IH]; intros i s ns state Hik I.
      { exists s, [], state. split; [reflexivity|]. split; [intros m []|]. rewrite app_nil_r. replace n with i at 2 by lia. exact I. }
      cbn [seq mixes]. destruct (@twiddles_ok i (seq 1 i) ltac:(lia) ltac:(intros j Hj; apply in_seq in Hj; lia) _ _ _ _ I) as (s1 & new1 & state1 & H1 & F1 & I1).
      destruct (@inv_step R s0 ns0 inputs s1 _ state1 _ [i] (hadamard h ph) W0 LV0 (proj1 Q0) I1) as (s2 & m & state2 & H2 & F2 & I2).
      { repeat constructor. intros []. }
      { intros q [<-|[]]. fold n. lia. }
      { reflexivity. }
      destruct (IH (S i) s2 ((ns ++ new1) ++ [m]) state2) as (s3 & new & state3 & H3 & F3 & I3); [lia| |].
      { apply (inv_ext I2). intros xs ys Bx By. fold n in Bx, By.
        pose proof (@hadamard_kernel n (fun zs => kern n i xs zs *! lprod (seq 1 i) (fun j => rpow (ph j) (nth i zs 0 * nth (i - j) zs 0))) ys i By ltac:(lia)) as Q.
        cbn [map length repeat] in *. rewrite Q. clear Q. destruct By as [Ly By]. destruct Bx as [Lx Bx].
        rewrite (@nsum_single R _ _ (nth i xs 0)).
        - unfold kern at 1. replace (n - i) with (S (n - S i)) by lia. cbn [seq agree].
          assert (forall q, nth q (replace_nth i (nth i xs 0) ys) 0 = if q =? i then nth i xs 0 else nth q ys 0) as E by (intros q; apply nth_replace; lia).
          rewrite E, Nat.eqb_refl, Nat.eqb_refl.
          rewrite (@agree_ext (seq (S i) (n - S i)) xs _ ys) by (intros q Hq; apply in_seq in Hq; rewrite E; destruct (Nat.eqb_spec q i); [lia|reflexivity]).
          rewrite (@lprod_ext R _ (seq 0 i) _ (cfac xs ys)) by (intros q Hq; apply in_seq in Hq; apply cfac_ext; intros j Hj; rewrite E; destruct (Nat.eqb_spec j i); [lia|reflexivity]).
          unfold kern. rewrite lprod_last. unfold cfac at 3. cbn [seq]. rewrite lprod_cons, Nat.sub_0_r.
          rewrite (@lprod_ext R _ (seq 1 i) _ (fun j => rpow (ph j) (nth i xs 0 * nth (i - j) ys 0))) by (intros j Hj; apply in_seq in Hj; rewrite E; destruct (Nat.eqb_spec (i - j) i); [lia|reflexivity]).
          ring.
        - apply Bx. lia.
        - intros v Hv Hne. unfold kern. rewrite (@agree_diff (seq i (n - i)) xs (replace_nth i v ys) i).
          + ring.
          + apply in_seq. lia.
          + rewrite nth_replace by lia. rewrite Nat.eqb_refl. congruence. }
      exists s3, (new1 ++ m :: new), state3. split; [unfold bind; rewrite H1, H2; exact H3|]. split.
      - intros q Hq. apply in_app_or in Hq. destruct Hq as [Hq|[<-|Hq]]; [apply F1, Hq|intros Hq; apply F2, (iv_nodes I1), Hq|apply F3, Hq].
      - rewrite <- !app_assoc in I3. exact I3.
    Qed.

    Lemma inv_start : inv s0 ns0 inputs (kern n 0).
    Proof.
      destruct Q0 as [ND HQ]. split; auto.
      intros a Ha. rewrite (@lsum_single R _ _ _ (map a inputs)).
      - unfold kern. cbn [seq]. rewrite lprod_nil, agree_same.
        rewrite (@netval_ext_asg R s0 ns0 (binds Nat.eq_dec a inputs (map a inputs)) a); [ring|]. intros x _.
        destruct (in_dec Nat.eq_dec x inputs) as [Hx|Hx]; [apply (binds_map a a ND Hx)|apply binds_other, Hx].
      - apply NoDup_idxs.
      - apply In_idxs. clear - Ha. induction inputs as [|x l IH]; cbn; constructor; [apply Ha; left; reflexivity|]. apply IH. intros y Hy. apply Ha. right. exact Hy.
      - intros xs Hxs Hne. apply In_idxs in Hxs. pose proof (valid_length Hxs) as Lx. rewrite repeat_length in Lx.
        destruct (list_eq_dec Nat.eq_dec xs (map a inputs)) as [->|Hd]; [congruence|].
        assert (exists k, k < n /\ nth k xs 0 <> nth k (map a inputs) 0) as (k & Hk & Hk').
        { assert (length (map a inputs) = n) as Lm by apply map_length. clear - Lx Lm Hd. fold n in Lx. revert Lx Lm Hd. generalize (map a inputs) as l. generalize n as q. clear. intros q l. revert xs q. induction l as [|y l IH]; intros [|x xs] q Lx Ll Hd; cbn in *; try congruence; try lia.
          destruct (Nat.eq_dec x y) as [->|]; [|exists 0; split; [lia|exact n]].
          destruct q as [|q]; [lia|]. destruct (IH xs q) as (k & H1 & H2); [lia|lia|congruence|]. exists (S k). split; [lia|exact H2]. }
        unfold kern. rewrite (@agree_diff _ xs (map a inputs) k); [ring| |exact Hk']. apply in_seq. fold n. lia.
    Qed.

    Lemma all_dangling_ok es : (forall e, In e es -> exists ns, loose s0 ns e) -> all_dangling es s0 = (s0, Some tt).
    Proof.
      induction es as [|e es IH]; intros H; [reflexivity|]. cbn [all_dangling]. destruct (H e (or_introl eq_refl)) as (ns & p & _ & _ & E).
      unfold bind at 1, get_edge. rewrite E. cbn. apply IH. intros x Hx. apply H. right. exact Hx.
    Qed.

    Theorem add_fft_ok : r1 +! ph 0 = r0 -> (forall p, S p < n -> ph (S p) *! ph (S p) = ph p) ->
      exists s' new out, add_fft h ph inputs s0 = (s', Some out) /\ wf s' /\ live s' (ns0 ++ new) /\ (forall m, In m new -> ~ is_node s0 m) /\
        length out = n /\ qubits s' (ns0 ++ new) out /\
        (forall x, loose s0 ns0 x -> ~ In x inputs -> loose s' (ns0 ++ new) x /\ edim s' x = edim s0 x) /\
        forall a Y, Y < 2 ^ n -> vector s' (ns0 ++ new) a out Y = dft n h (ph (n - 1)) (vector s0 ns0 a inputs) Y.
    Proof.
      intros Hm1 Hsq. destruct (@mixes_ok n 0 s0 ns0 inputs eq_refl inv_start) as (s' & new & state & H & F & I).
      exists s', new, (rev state). split.
      { unfold add_fft, bind. rewrite all_dangling_ok by (intros e He; exists ns0; apply Q0, He). fold n. rewrite H. reflexivity. }
      destruct (iv_qubits I) as [ND HQ].
      split; [apply (iv_wf I)|]. split; [apply (iv_live I)|]. split; [exact F|]. split; [rewrite rev_length; apply (iv_len I)|].
      split; [split; [apply NoDup_rev, ND|]; intros e He; apply HQ, in_rev, He|]. split; [apply (iv_rest I)|].
      intros a Y HY. unfold vector at 1. rewrite rev_length, (iv_len I). fold n.
      set (zs := unravel (repeat 2 n) Y).
      assert (valid zs (repeat 2 n)) as Vz by (apply unravel_valid; rewrite nprod2; exact HY).
      pose proof (valid_length Vz) as Lz. rewrite repeat_length in Lz.
      set (b := binds Nat.eq_dec a (rev state) zs).
      assert (map b (rev state) = zs) as Eb.
      { apply map_binds; [apply NoDup_rev, ND|]. rewrite rev_length, (iv_len I). exact Lz. }
      assert (map b state = rev zs) as Eb' by (rewrite <- Eb, map_rev, rev_involutive; reflexivity).
      rewrite (iv_val I).
      - fold b. rewrite Eb'. unfold dft. rewrite <- nsum_mul_l, <- nprod2, <- (nsum_ravel (repeat 2 n)). apply lsum_ext. intros xs Hxs. apply In_idxs in Hxs.
        pose proof (valid_length Hxs) as Lx. rewrite repeat_length in Lx.
        unfold kern. rewrite Nat.sub_diag. cbn [seq agree]. rewrite (@kernel_dft n Hm1 Hsq xs zs Lx Lz).
        unfold vector. fold n. rewrite unravel_ravel by exact Hxs.
        unfold zs at 1. rewrite ravel_unravel by (rewrite nprod2; exact HY).
        assert (netval s0 ns0 (binds Nat.eq_dec b inputs xs) = netval s0 ns0 (binds Nat.eq_dec a inputs xs)) as ->; [|ring].
        apply netval_ext_asg. intros x Hx.
        destruct (in_dec Nat.eq_dec x inputs) as [Hi|Hi].
        + destruct (In_nth_error _ _ Hi) as (i & Hi'). pose proof (binds_nth a (proj1 Q0) Lx Hi') as B1. pose proof (binds_nth b (proj1 Q0) Lx Hi') as B2. congruence.
        + transitivity (b x); [apply binds_other; exact Hi|]. transitivity (a x); [|symmetry; apply binds_other; exact Hi]. apply binds_other.
          intros K0. apply in_rev in K0. destruct (iv_src I K0) as [Q|Q]; [contradiction|].
          assert (In x (net_labels (net_of s0 ns0))) as K2 by (apply (count_occ_In Nat.eq_dec); lia).
          apply In_net_labels in K2. destruct K2 as (q & _ & (i & Hs)). apply (slot_lt W0) in Hs. lia.
      - intros x Hx. fold b. assert (In (b x) zs) as K0 by (rewrite <- Eb; apply in_map; apply -> in_rev; exact Hx).
        clear - Vz K0. revert K0. generalize (b x). clearbody zs. revert Vz. generalize n. intros q Vz. remember (repeat 2 q) as l. revert q Heql. induction Vz as [|x0 y l l0 H H0 IH]; intros q E v Hv; [destruct Hv|]; destruct Hv as [<-|Hv].
        + destruct q; cbn in E; [discriminate|]. injection E as -> _. exact H.
        + destruct q; cbn in E; [discriminate|]. injection E as _ ->. apply (IH q eq_refl v Hv).
    Qed.
  End Run.
End FM.

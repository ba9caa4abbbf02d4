(** * KerasCall: the common part of the layers, contractions over given axes *)
From Verif Require Import Prelude Algebra Tensor TensorFacts Res Backends ListFacts Keras KerasSpec.
Set Implicit Arguments.
Unset Strict Implicit.

Lemma nprod_pow d k : nprod (repeat d k) = d ^ k.
Proof. induction k as [|k IH]; cbn; [reflexivity|]. fold (nprod (repeat d k)). rewrite IH. reflexivity. Qed.
Lemma list_eqb_same l : list_eqb l l = true.
Proof. unfold list_eqb. destruct (list_eq_dec Nat.eq_dec l l) as [_|F]; [reflexivity|contradiction]. Qed.
Lemma filter_all A (f : A -> bool) l : (forall x, In x l -> f x = true) -> filter f l = l.
Proof. induction l as [|a l IH]; cbn; intros H; [reflexivity|]. rewrite (H a) by (left; reflexivity). rewrite IH; [reflexivity|]. intros x Hx. apply H. right; exact Hx. Qed.
Lemma mapr_ok A B (f : A -> res B) (g : A -> B) l : (forall x, In x l -> f x = Ok (g x)) -> mapr f l = Ok (map g l).
Proof.
  induction l as [|a l IH]; intros H; cbn; [reflexivity|]. rewrite (H a) by (left; reflexivity). cbn. rewrite IH; [reflexivity|].
  intros x Hx. apply H. right; exact Hx.
Qed.
Lemma mapr_ex A B (f : A -> res B) (P : A -> B -> Prop) l : (forall x, In x l -> exists y, f x = Ok y /\ P x y) -> exists ys, mapr f l = Ok ys /\ Forall2 P l ys.
Proof.
  induction l as [|a l IH]; intros H; cbn; [exists []; split; [reflexivity|constructor]|].
  destruct (H a) as (y & E & Py); [left; reflexivity|]. rewrite E. cbn. destruct IH as (ys & E' & F); [intros x Hx; apply H; right; exact Hx|].
  rewrite E'. cbn. exists (y :: ys). split; [reflexivity|constructor; assumption].
Qed.

(** the axes left by a contraction *)
Ltac fax := unfold free_axes; apply filter_all; intros ? ?Hx; apply in_seq in Hx; cbn; repeat match goal with |- context [?a =? ?b] => destruct (Nat.eqb_spec a b); try lia end; reflexivity.
Lemma free_head n : free_axes (S n) [0] = seq 1 n.
Proof. unfold free_axes. cbn [seq filter mem existsb Nat.eqb orb negb]. fax. Qed.
Lemma free_head2 n : free_axes (S (S n)) [0; 1] = seq 2 n.
Proof. unfold free_axes. cbn [seq filter mem existsb Nat.eqb orb negb]. fax. Qed.
Lemma free_last n : free_axes (n + 1) [n] = seq 0 n.
Proof.
  unfold free_axes. rewrite seq_app, filter_app. cbn [seq filter plus]. unfold mem at 2. cbn [existsb]. rewrite Nat.eqb_refl. cbn. rewrite app_nil_r. fax.
Qed.
Lemma free_last2 n : free_axes (n + 2) [n + 2 - 1; n + 2 - 2] = seq 0 n.
Proof.
  unfold free_axes. replace (n + 2 - 1) with (S n) by lia. replace (n + 2 - 2) with n by lia. rewrite seq_app, filter_app.
  assert (filter (fun i => negb (mem i [S n; n])) (seq (0 + n) 2) = []) as ->.
  { cbn [seq filter plus]. unfold mem. cbn [existsb]. rewrite !Nat.eqb_refl. rewrite orb_true_r. cbn. reflexivity. }
  rewrite app_nil_r. fax.
Qed.
Lemma free_mid n : free_axes (1 + n + 2) [0; 1 + n] = seq 1 n ++ [S (S n)].
Proof.
  unfold free_axes. rewrite seq_app, filter_app. f_equal.
  - cbn [plus seq filter mem existsb Nat.eqb orb negb]. fax.
  - cbn [plus seq filter]. unfold mem. cbn [existsb].
    replace (S n =? 0) with false by (symmetry; apply Nat.eqb_neq; lia). replace (S (S n) =? 0) with false by (symmetry; apply Nat.eqb_neq; lia).
    rewrite Nat.eqb_refl. replace (S (S n) =? S n) with false by (symmetry; apply Nat.eqb_neq; lia). reflexivity.
Qed.
Lemma gather_seq_app A (d : A) p l q : gather d (p ++ l ++ q) (seq (length p) (length l)) = l.
Proof.
  apply (nth_ext _ _ d d); rewrite gather_length, seq_length; [reflexivity|]. intros k Hk.
  rewrite nth_gather by (rewrite seq_length; exact Hk). rewrite seq_nth by exact Hk. rewrite app_nth2 by lia. rewrite app_nth1 by lia. f_equal. lia.
Qed.
Lemma gather_seq_start A (d : A) l q : gather d (l ++ q) (seq 0 (length l)) = l.
Proof. apply (@gather_seq_app A d [] l q). Qed.
Lemma gather_seq_end A (d : A) p l : gather d (p ++ l) (seq (length p) (length l)) = l.
Proof. rewrite <- (app_nil_r l) at 1. apply gather_seq_app. Qed.

Section Call.
  Context {R : csr}.
  Notation tensor := (tensor R).
  Add Ring rr : (@rsr R).

  Lemma td_at (a b : tensor) ax bx ia ib (Ja Jb : list nat -> list nat) :
    NoDup ax -> NoDup bx -> (forall i, In i ax -> i < rank a) -> (forall i, In i bx -> i < rank b) ->
    length ia = length (free_axes (rank a) ax) ->
    (forall vs, valid vs (gather 0 (shape a) ax) -> length (Ja vs) = rank a /\ gather 0 (Ja vs) (free_axes (rank a) ax) = ia /\ gather 0 (Ja vs) ax = vs) ->
    (forall vs, valid vs (gather 0 (shape a) ax) -> length (Jb vs) = rank b /\ gather 0 (Jb vs) (free_axes (rank b) bx) = ib /\ gather 0 (Jb vs) bx = vs) ->
    elt (tensordot a b ax bx) (ia ++ ib) = lsum (idxs (gather 0 (shape a) ax)) (fun vs => elt a (Ja vs) *! elt b (Jb vs)).
  Proof.
    intros Na Nb Ba Bb Hl HA HB. cbn [tensordot elt]. rewrite <- Hl. rewrite firstn_app, skipn_app, Nat.sub_diag, firstn_all, skipn_all. cbn [firstn skipn app].
    rewrite app_nil_r. apply lsum_ext. intros vs Hv. apply In_idxs in Hv. destruct (HA vs Hv) as (La & Fa & Ca), (HB vs Hv) as (Lb & Fb & Cb).
    pose proof (@free_axes_perm (rank a) ax Na Ba) as Pa. pose proof (@free_axes_perm (rank b) bx Nb Bb) as Pb. f_equal; f_equal.
    - rewrite <- La in Pa. rewrite <- (@unperm_gather nat 0 0 _ _ Pa). rewrite La. rewrite gather_app, Fa, Ca. reflexivity.
    - rewrite <- Lb in Pb. rewrite <- (@unperm_gather nat 0 0 _ _ Pb). rewrite Lb. rewrite gather_app, Fb, Cb. reflexivity.
  Qed.

  Lemma link_ok (a b : tensor) ax bx : gather 0 (shape a) ax = gather 0 (shape b) bx -> link a b ax bx = Ok (tensordot a b ax bx).
  Proof. intros E. unfold link. rewrite E, list_eqb_same. reflexivity. Qed.

  Lemma idxs1 d (f : list nat -> R) : lsum (idxs [d]) f = nsum d (fun v => f [v]).
  Proof. rewrite lsum_idxs_cons. apply nsum_ext. intros i _. cbn. ring. Qed.
  Lemma idxs2 d e (f : list nat -> R) : lsum (idxs [d; e]) f = nsum d (fun v => nsum e (fun w => f [v; w])).
  Proof. rewrite lsum_idxs_cons. apply nsum_ext. intros i _. rewrite idxs1. reflexivity. Qed.

  Lemma nd1 (a : nat) : NoDup [a]. Proof. constructor; [intros []|constructor]. Qed.
  Lemma nd2 (a b : nat) : a <> b -> NoDup [a; b].
  Proof. intros H. constructor; [intros [E|[]]; congruence|apply nd1]. Qed.
  Lemma valid1 vs d : valid vs [d] -> exists v, vs = [v] /\ v < d.
  Proof. intros H. inversion H as [|v ? vs' ? Hv F]; subst. inversion F; subst. exists v. split; [reflexivity|exact Hv]. Qed.
  Lemma valid2 vs d e : valid vs [d; e] -> exists v w, vs = [v; w] /\ v < d /\ w < e.
  Proof. intros H. inversion H as [|v ? vs' ? Hv F]; subst. apply valid1 in F as (w & -> & Hw). exists v, w. split; [reflexivity|split; assumption]. Qed.

  (** first axis with first axis *)
  Lemma link_head (a b : tensor) d s s' : shape a = d :: s -> shape b = d :: s' ->
    exists t, link a b [0] [0] = Ok t /\ shape t = s ++ s' /\
      forall ia ib, length ia = length s -> length ib = length s' -> elt t (ia ++ ib) = nsum d (fun v => elt a (v :: ia) *! elt b (v :: ib)).
  Proof.
    intros Ea Eb. eexists. split; [apply link_ok; rewrite Ea, Eb; reflexivity|]. unfold rank. split.
    - cbn [tensordot shape]. unfold rank. rewrite Ea, Eb. cbn [length]. rewrite !free_head.
      change (seq 1 (length s)) with (seq (length [d]) (length s)). change (seq 1 (length s')) with (seq (length [d]) (length s')).
      change (d :: s) with ([d] ++ s). change (d :: s') with ([d] ++ s'). rewrite !gather_seq_end. reflexivity.
    - intros ia ib La Lb. rewrite (@td_at a b [0] [0] ia ib (fun vs => nth 0 vs 0 :: ia) (fun vs => nth 0 vs 0 :: ib)).
      + rewrite Ea. cbn [gather map nth]. rewrite idxs1. reflexivity.
      + apply nd1.
      + apply nd1.
      + intros i [<-|[]]. unfold rank. rewrite Ea. cbn. lia.
      + intros i [<-|[]]. unfold rank. rewrite Eb. cbn. lia.
      + unfold rank. rewrite Ea. cbn [length]. rewrite free_head, seq_length. exact La.
      + rewrite Ea. intros vs Hv. cbn [gather map nth] in Hv. apply valid1 in Hv as (v & -> & _). unfold rank. rewrite Ea. cbn [length nth]. rewrite free_head.
        split; [rewrite La; reflexivity|]. split; [|reflexivity]. rewrite <- La. apply (@gather_seq_end nat 0 [v]).
      + rewrite Ea. intros vs Hv. cbn [gather map nth] in Hv. apply valid1 in Hv as (v & -> & _). unfold rank. rewrite Eb. cbn [length nth]. rewrite free_head.
        split; [rewrite Lb; reflexivity|]. split; [|reflexivity]. rewrite <- Lb. apply (@gather_seq_end nat 0 [v]).
  Qed.

  (** last axis with first axis *)
  Lemma link_last (a b : tensor) d s s' : shape a = s ++ [d] -> shape b = d :: s' ->
    exists t, link a b [rank a - 1] [0] = Ok t /\ shape t = s ++ s' /\
      forall ia ib, length ia = length s -> length ib = length s' -> elt t (ia ++ ib) = nsum d (fun v => elt a (ia ++ [v]) *! elt b (v :: ib)).
  Proof.
    intros Ea Eb. assert (rank a = length s + 1) as Er by (unfold rank; rewrite Ea, app_length; reflexivity).
    assert (rank a - 1 = length s) as Er' by lia. rewrite Er'.
    assert (gather 0 (shape a) [length s] = [d]) as Eg. { rewrite Ea. cbn. rewrite app_nth2, Nat.sub_diag by lia. reflexivity. }
    eexists. split; [apply link_ok; rewrite Eg, Eb; reflexivity|]. split.
    - cbn [tensordot shape]. rewrite Er. unfold rank. rewrite Ea, Eb. cbn [length]. rewrite free_head, free_last.
      change (d :: s') with ([d] ++ s'). change (seq 1 (length s')) with (seq (length [d]) (length s')). rewrite gather_seq_end.
      rewrite (@gather_seq_start nat 0 s [d]). reflexivity.
    - intros ia ib La Lb. rewrite (@td_at a b [length s] [0] ia ib (fun vs => ia ++ [nth 0 vs 0]) (fun vs => nth 0 vs 0 :: ib)).
      + rewrite Eg, idxs1. reflexivity.
      + apply nd1.
      + apply nd1.
      + intros i [<-|[]]. lia.
      + intros i [<-|[]]. unfold rank. rewrite Eb. cbn. lia.
      + rewrite Er, free_last, seq_length. exact La.
      + rewrite Eg. intros vs Hv. apply valid1 in Hv as (v & -> & _). rewrite Er, free_last. cbn [nth].
        split; [rewrite app_length; cbn; lia|]. split.
        * rewrite <- La. apply (@gather_seq_start nat 0 ia [v]).
        * cbn. rewrite <- La, app_nth2, Nat.sub_diag by lia. reflexivity.
      + rewrite Eg. intros vs Hv. apply valid1 in Hv as (v & -> & _). unfold rank. rewrite Eb. cbn [length nth]. rewrite free_head.
        split; [rewrite Lb; reflexivity|]. split; [|reflexivity]. rewrite <- Lb. apply (@gather_seq_end nat 0 [v]).
  Qed.

  (** last and last but one axis with the first two axes *)
  Lemma link_last2 (a b : tensor) d e s s' : shape a = s ++ [e; d] -> shape b = d :: e :: s' ->
    exists t, link a b [rank a - 1; rank a - 2] [0; 1] = Ok t /\ shape t = s ++ s' /\
      forall ia ib, length ia = length s -> length ib = length s' ->
        elt t (ia ++ ib) = nsum d (fun v => nsum e (fun w => elt a (ia ++ [w; v]) *! elt b (v :: w :: ib))).
  Proof.
    intros Ea Eb. assert (rank a = length s + 2) as Er by (unfold rank; rewrite Ea, app_length; reflexivity). rewrite Er.
    assert (forall ia x y, length ia = length s -> gather 0 (ia ++ [x; y]) [length s + 2 - 1; length s + 2 - 2] = [y; x]) as Gs.
    { intros ia x y L. replace (length s + 2 - 1) with (length ia + 1) by lia. replace (length s + 2 - 2) with (length ia + 0) by lia. cbn.
      rewrite !app_nth2_plus. reflexivity. }
    assert (gather 0 (shape a) [length s + 2 - 1; length s + 2 - 2] = [d; e]) as Eg. { rewrite Ea. apply Gs. reflexivity. }
    eexists. split; [apply link_ok; rewrite Eg, Eb; reflexivity|]. split.
    - cbn [tensordot shape]. rewrite Er. unfold rank. rewrite Ea, Eb. cbn [length]. rewrite free_head2, free_last2.
      change (d :: e :: s') with ([d; e] ++ s'). change (seq 2 (length s')) with (seq (length [d; e]) (length s')). rewrite gather_seq_end.
      rewrite (@gather_seq_start nat 0 s [e; d]). reflexivity.
    - intros ia ib La Lb.
      rewrite (@td_at a b [length s + 2 - 1; length s + 2 - 2] [0; 1] ia ib (fun vs => ia ++ [nth 1 vs 0; nth 0 vs 0]) (fun vs => nth 0 vs 0 :: nth 1 vs 0 :: ib)).
      + rewrite Eg, idxs2. reflexivity.
      + apply nd2. lia.
      + apply nd2. lia.
      + intros i [<-|[<-|[]]]; lia.
      + intros i [<-|[<-|[]]]; unfold rank; rewrite Eb; cbn; lia.
      + rewrite Er, free_last2, seq_length. exact La.
      + rewrite Eg. intros vs Hv. apply valid2 in Hv as (v & w & -> & _ & _). rewrite Er, free_last2. cbn [nth].
        split; [rewrite app_length; cbn; lia|]. split.
        * rewrite <- La. apply (@gather_seq_start nat 0 ia [w; v]).
        * apply Gs. exact La.
      + rewrite Eg. intros vs Hv. apply valid2 in Hv as (v & w & -> & _ & _). unfold rank. rewrite Eb. cbn [length nth]. rewrite free_head2.
        split; [rewrite Lb; reflexivity|]. split; [|reflexivity]. rewrite <- Lb. apply (@gather_seq_end nat 0 [v; w]).
  Qed.

  (** first and last but one axis with the first two axes *)
  Lemma link_mid (a b : tensor) d e o s s' k : shape a = d :: s ++ [e; o] -> shape b = d :: e :: s' -> k = 1 + length s ->
    exists t, link a b [0; k] [0; 1] = Ok t /\ shape t = s ++ [o] ++ s' /\
      forall ia io ib, length ia = length s -> length ib = length s' ->
        elt t (ia ++ [io] ++ ib) = nsum d (fun v => nsum e (fun w => elt a (v :: ia ++ [w; io]) *! elt b (v :: w :: ib))).
  Proof.
    intros Ea Eb ->. assert (rank a = 1 + length s + 2) as Er by (unfold rank; rewrite Ea; cbn; rewrite app_length; cbn; lia).
    assert (forall ia x y z, length ia = length s -> gather 0 (x :: ia ++ [y; z]) [0; 1 + length s] = [x; y]) as Gs.
    { intros ia x y z L. rewrite <- L. cbn. rewrite app_nth2, Nat.sub_diag by lia. reflexivity. }
    assert (forall ia x y z, length ia = length s -> gather 0 (x :: ia ++ [y; z]) (seq 1 (length s) ++ [S (S (length s))]) = ia ++ [z]) as Gf.
    { intros ia x y z L. rewrite gather_app, <- L. f_equal.
      - apply (@gather_seq_app nat 0 [x] ia [y; z]).
      - cbn. rewrite app_nth2 by lia. replace (S (length ia) - length ia) with 1 by lia. reflexivity. }
    assert (gather 0 (shape a) [0; 1 + length s] = [d; e]) as Eg. { rewrite Ea. apply Gs. reflexivity. }
    eexists. split; [apply link_ok; rewrite Eg, Eb; reflexivity|]. split.
    - cbn [tensordot shape]. rewrite Er. unfold rank. rewrite Ea, Eb. cbn [length]. rewrite free_head2, free_mid.
      change (d :: e :: s') with ([d; e] ++ s'). change (seq 2 (length s')) with (seq (length [d; e]) (length s')). rewrite gather_seq_end.
      rewrite Gf by reflexivity. rewrite <- app_assoc. reflexivity.
    - intros ia io ib La Lb. rewrite app_assoc.
      rewrite (@td_at a b [0; 1 + length s] [0; 1] (ia ++ [io]) ib (fun vs => nth 0 vs 0 :: ia ++ [nth 1 vs 0; io]) (fun vs => nth 0 vs 0 :: nth 1 vs 0 :: ib)).
      + rewrite Eg, idxs2. reflexivity.
      + apply nd2. lia.
      + apply nd2. lia.
      + intros i [<-|[<-|[]]]; lia.
      + intros i [<-|[<-|[]]]; unfold rank; rewrite Eb; cbn; lia.
      + rewrite Er, free_mid, !app_length, seq_length. cbn. lia.
      + rewrite Eg. intros vs Hv. apply valid2 in Hv as (v & w & -> & _ & _). rewrite Er, free_mid. cbn [nth].
        split; [cbn; rewrite app_length; cbn; lia|]. split; [apply Gf; exact La|apply Gs; exact La].
      + rewrite Eg. intros vs Hv. apply valid2 in Hv as (v & w & -> & _ & _). unfold rank. rewrite Eb. cbn [length nth]. rewrite free_head2.
        split; [rewrite Lb; reflexivity|]. split; [|reflexivity]. rewrite <- Lb. apply (@gather_seq_end nat 0 [v; w]).
  Qed.

  (** ** rows *)
  Lemma concat_uniform_length A w (ls : list (list A)) : Forall (fun l => length l = w) ls -> length (concat ls) = length ls * w.
  Proof. induction 1 as [|l ls Hl F IH]; cbn; [reflexivity|]. rewrite app_length, IH, Hl. reflexivity. Qed.
  Lemma skipn_concat A w (ls : list (list A)) k : Forall (fun l => length l = w) ls -> skipn (k * w) (concat ls) = concat (skipn k ls).
  Proof.
    intros H. revert k. induction H as [|l ls Hl F IH]; intros k; cbn.
    - rewrite !skipn_nil. reflexivity.
    - destruct k as [|k]; [reflexivity|]. cbn [skipn]. rewrite skipn_app. rewrite skipn_all2 by (cbn; lia). cbn. rewrite <- IH. f_equal. lia.
  Qed.
  Lemma skipn_cons A (ls : list A) k d : k < length ls -> skipn k ls = nth k ls d :: skipn (S k) ls.
  Proof.
    revert ls. induction k as [|k IH]; intros [|l ls] Hk; cbn in Hk; [lia|reflexivity|lia|]. cbn [skipn nth]. rewrite (IH ls) by lia. reflexivity.
  Qed.
  Lemma rows_of_concat w (ls : list (list R)) : 0 < w -> Forall (fun l => length l = w) ls -> rows_of w (concat ls) = ls.
  Proof.
    intros Hw F. unfold rows_of. rewrite (concat_uniform_length F), Nat.div_mul by lia.
    apply (nth_ext _ _ [] []); [rewrite map_length, seq_length; reflexivity|]. rewrite map_length, seq_length. intros k Hk.
    rewrite (nth_indep _ [] (firstn w (skipn (0 * w) (concat ls)))) by (rewrite map_length, seq_length; exact Hk).
    rewrite (map_nth (fun k => firstn w (skipn (k * w) (concat ls)))), seq_nth by exact Hk. cbn [plus].
    rewrite (@skipn_concat R w ls k F), (skipn_cons [] Hk). cbn [concat]. rewrite Forall_forall in F.
    assert (length (nth k ls []) = w) as L by (apply F; apply nth_In; exact Hk). rewrite firstn_app, L, Nat.sub_diag. cbn. rewrite app_nil_r. rewrite <- L. apply firstn_all.
  Qed.
  Lemma nth_concat_uniform A w (ls : list (list A)) k o d : Forall (fun l => length l = w) ls -> k < length ls -> o < w -> nth (k * w + o) (concat ls) d = nth o (nth k ls []) d.
  Proof.
    intros F Hk Ho. rewrite <- (firstn_skipn (k * w) (concat ls)) at 1.
    assert (length (firstn (k * w) (concat ls)) = k * w) as L by (apply firstn_length_le; rewrite (concat_uniform_length F); nia).
    rewrite <- L at 1. rewrite app_nth2_plus. rewrite (@skipn_concat A w ls k F), (skipn_cons [] Hk). cbn [concat]. apply app_nth1.
    rewrite Forall_forall in F. rewrite (F (nth k ls [])); [exact Ho|apply nth_In; exact Hk].
  Qed.
  Lemma unravel_snoc s n k i : i < n -> k < nprod s -> unravel (s ++ [n]) (k * n + i) = unravel s k ++ [i].
  Proof.
    intros Hi Hk. assert (valid (unravel s k ++ [i]) (s ++ [n])) as V.
    { apply valid_app; [apply unravel_valid; exact Hk|]. constructor; [exact Hi|constructor]. }
    rewrite <- (unravel_ravel V). f_equal. rewrite ravel_app by (apply valid_length, unravel_valid; exact Hk).
    rewrite ravel_unravel by exact Hk. cbn. lia.
  Qed.

  Lemma bias_list (y : tensor) bias out (g : nat -> R) : shape y = [out] \/ shape y = [1; out] -> bias_ok bias out -> to_list y = map g (seq 0 out) ->
    exists y', plus_bias y bias = Ok y' /\ to_list y' = map (fun o => g o +! bias_at bias o) (seq 0 out).
  Proof.
    intros S B E. unfold plus_bias, bias_at. destruct bias as [b|]; cbn in B.
    - assert (last (shape y) 0 = out) as -> by (destruct S as [-> | ->]; reflexivity). rewrite B, list_eqb_same. eexists. split; [reflexivity|].
      unfold to_list in *. cbn [shape elt].
      assert (exists p, idxs (shape y) = map (fun o => p ++ [o]) (seq 0 out)) as (p & Ep).
      { clear E. destruct S as [-> | ->]; [exists []|exists [0]]; cbn [idxs].
        - cbn [map]. rewrite flat_map_concat_map. induction (seq 0 out) as [|a l IH]; cbn in *; [reflexivity|rewrite IH; reflexivity].
        - cbn [seq flat_map]. rewrite app_nil_r, flat_map_concat_map. induction (seq 0 out) as [|a l IH]; cbn in *; [reflexivity|rewrite IH; reflexivity]. }
      rewrite Ep in *. rewrite map_map in *. apply map_ext_in. intros o Ho. rewrite last_last. f_equal. revert o Ho. apply map_ext_in_iff. exact E.
    - exists y. split; [reflexivity|]. rewrite E. apply map_ext. intros o. ring.
  Qed.

  Lemma call_layer (f : tensor -> res tensor) (F : (nat -> R) -> nat -> R) bias act n out d0 mid (inputs : tensor) :
    shape inputs = d0 :: mid ++ [n] -> 0 < nprod (shape inputs) -> 0 < out -> (forall l, length l = out -> length (act l) = out) ->
    (forall x x' o, (forall i, i < n -> x i = x' i) -> o < out -> F x o = F x' o) ->
    (forall x : tensor, shape x = [n] -> exists y, f x = Ok y /\ to_list y = map (fun o => F (fun i => elt x [i]) o +! bias_at bias o) (seq 0 out)) ->
    exists y, call f act out inputs = Ok y /\ is_layer F bias act out inputs y.
  Proof.
    intros Es Hp Ho Hact Fext Hf. set (s := d0 :: mid) in *. change (d0 :: mid ++ [n]) with (s ++ [n]) in Es.
    assert (nprod (shape inputs) = nprod s * n) as Ep by (rewrite Es, nprod_app; cbn; lia).
    assert (0 < n /\ 0 < nprod s) as (Hn & Hs) by nia.
    assert (removelast (shape inputs) = s) as Er by (rewrite Es; apply removelast_last).
    assert (last (shape inputs) 0 = n) as El by (rewrite Es; apply last_last).
    unfold call. destruct (shape inputs) as [|dd ss] eqn:Esh; [destruct s; discriminate|]. rewrite El.
    replace (n =? 0) with false by (symmetry; apply Nat.eqb_neq; lia). rewrite Ep, Nat.div_mul by lia.
    set (row := fun k => Tensor [n] (fun ix => elt (reshape inputs [nprod s; n]) (k :: ix))).
    set (r := fun k o => F (fun i => elt inputs (unravel s k ++ [i])) o +! bias_at bias o).
    destruct (@mapr_ex nat tensor (fun k => f (row k)) (fun k y => to_list y = map (r k) (seq 0 out)) (seq 0 (nprod s))) as (ys & Ey & Fy).
    { intros k Hk. apply in_seq in Hk. destruct (Hf (row k) eq_refl) as (y & E & L). exists y. split; [exact E|]. rewrite L. apply map_ext_in. intros o Hoo.
      apply in_seq in Hoo. unfold r. f_equal. apply Fext; [|lia]. intros i Hi. cbn [row elt reshape]. rewrite Esh. rewrite Es. f_equal.
      rewrite <- (@unravel_snoc s n k i) by lia. f_equal. cbn. lia. }
    unfold row in Ey. rewrite Ey. cbn [rbind].
    assert (flat_map (@to_list R) ys = concat (map (fun k => map (r k) (seq 0 out)) (seq 0 (nprod s)))) as Ec.
    { clear Ey. induction Fy as [|k y ks ys Hy Fy IH]; cbn; [reflexivity|]. rewrite Hy, IH. reflexivity. }
    rewrite Ec, rows_of_concat; [|exact Ho|apply Forall_forall; intros l Hl; apply in_map_iff in Hl as (k & <- & _); rewrite map_length, seq_length; reflexivity].
    rewrite flat_map_concat_map, map_map. set (dl := map (fun x => act (map (r x) (seq 0 out))) (seq 0 (nprod s))).
    assert (Forall (fun l => length l = out) dl) as Fd.
    { apply Forall_forall. intros l Hl. unfold dl in Hl. apply in_map_iff in Hl as (k & <- & _). apply Hact. rewrite map_length, seq_length. reflexivity. }
    assert (length dl = nprod s) as Ld by (unfold dl; rewrite map_length, seq_length; reflexivity).
    assert (removelast (tl (dd :: ss)) = mid) as Em.
    { cbn [tl]. cbn [s app] in Es. injection Es as _ ->. apply removelast_last. }
    rewrite Em. unfold to_shape_infer. cbn [shape of_list].
    assert (nprod (mid ++ [out]) = nprod mid * out) as En by (rewrite nprod_app; cbn; lia).
    assert (nprod s = d0 * nprod mid) as Es' by reflexivity.
    assert (0 < nprod mid * out) as Hm by nia.
    assert (nprod [length (concat dl)] = d0 * (nprod mid * out)) as Et by (change (nprod [length (concat dl)]) with (length (concat dl) * 1); rewrite (concat_uniform_length Fd), Ld, Es'; ring).
    rewrite En, Et. replace (nprod mid * out =? 0) with false by (symmetry; apply Nat.eqb_neq; lia). cbn [orb].
    rewrite Nat.mod_mul by lia. cbn [Nat.eqb negb]. rewrite Nat.div_mul by lia. eexists. split; [reflexivity|]. split.
    - rewrite Esh, Er. reflexivity.
    - rewrite Esh, Er. intros ix o Hix Hoo. cbn [reshape elt of_list shape].
      assert (ravel s ix < nprod s) as Hk by (apply ravel_lt; exact Hix).
      change (d0 :: mid ++ [out]) with (s ++ [out]).
      assert (ravel (s ++ [out]) (ix ++ [o]) = ravel s ix * out + o) as Erv.
      { rewrite ravel_app by (apply valid_length; exact Hix). cbn. lia. }
      rewrite Erv. rewrite ravel_unravel by (rewrite Et; nia).
      rewrite (@nth_concat_uniform R out dl (ravel s ix) o r0 Fd) by lia. unfold dl.
      rewrite (nth_indep _ [] (act (map (r 0) (seq 0 out)))) by (rewrite map_length, seq_length; exact Hk).
      rewrite (map_nth (fun x => act (map (r x) (seq 0 out)))), seq_nth by exact Hk. cbn [plus]. unfold r. rewrite (unravel_ravel Hix). reflexivity.
  Qed.
End Call.

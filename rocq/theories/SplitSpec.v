(** * SplitSpec: what splitting a node must achieve, and that the model achieves it *)
From Verif Require Import Prelude Res Algebra Tensor TensorFacts Einsum EinsumFacts NetworkFacts Graph GraphBase GraphContract GraphOps GraphValue GraphOuter GraphConnect GraphJoin GraphLaws GraphQuery GraphQueryFacts GraphCompound GraphCopy NetIso GraphCopyFacts Backends DecompFacts SplitNode SplitNodeFacts SplitFullFacts.
Set Implicit Arguments.
Unset Strict Implicit.

Section Spec.
  Context {R : cjr}.
  Add Ring Rring : (rsr R).
  Notation st := (@st R).
  Notation node := (@node R).
  Implicit Types (s : st) (e f : eid).

  (** the left and right edges are the edges of the node, each once *)
  Definition bipartition s (n : nid) (nd : node) (L Rt : list eid) : Prop :=
    s_nodes s n = Some nd /\ NoDup (L ++ Rt) /\ Permutation (L ++ Rt) (n_edges nd).
  (** the given axis name is not yet used on the node *)
  Definition unused (nd : node) (name : option nat) : Prop := forall x, name = Some x -> ~ In x (n_names nd).
  (** the name of the axis where edge e sits *)
  Definition name_of (nd : node) (e : eid) : nat := nth (nindex e (n_edges nd)) (n_names nd) 0.
  (** axis names of the new nodes: the old ones and the name of the bond, or 0, 1, 2, ... *)
  Definition new_names (nd : node) (lname rname : option nat) (es : list eid) (at_end : bool) : list nat :=
    match n_names nd, lname, rname with
    | _ :: _, Some x, Some y => if at_end then map (name_of nd) es ++ [x] else y :: map (name_of nd) es
    | _, _, _ => seq 0 (1 + length es)
    end.
  Definition mid_names (nd : node) (lname rname : option nat) : list nat :=
    match n_names nd, lname, rname with _ :: _, Some x, Some y => [x; y] | _, _, _ => [0; 1] end.
  (** the split-up node is left with its tensor and fresh dangling edges *)
  Definition left_over s s' (n : nid) (nd : node) : Prop :=
    exists fs, s_nodes s' n = Some (Node (n_t nd) fs (n_names nd)) /\ forall f, In f fs -> s_ne s <= f /\ open_on s' n f.
  (** the network consisting of n and S, with T in place of the tensor of n *)
  Definition value_with s (nd : node) (T : tensor R) (S : list nid) (a : eid -> nat) : R :=
    value Nat.eq_dec (edim s) ((T, n_edges nd) :: net_of s S) a.
  (** S contains nodes other than n, a gives values to the open edges of n and S *)
  Definition rest_ok s (n : nid) (S : list nid) (a : eid -> nat) : Prop :=
    ~ In n S /\ (forall m, In m S -> is_node s m) /\ open_ok s (n :: S) a.

  (** result of a two-way split *)
  Record two_way s s' (n : nid) (nd : node) (L Rt : list eid) (name : option nat) (N1 N2 : nid) : Prop := {
    tw_wf : wf s';
    tw_new : ~ is_node s N1 /\ ~ is_node s N2 /\ N1 <> N2;
    tw_nodes : exists q r k g, s_ne s <= g /\
      s_nodes s' N1 = Some (Node q (L ++ [g]) (new_names nd name name L true)) /\ shape q = map (edim s) L ++ [k] /\
      s_nodes s' N2 = Some (Node r (g :: Rt) (new_names nd name name Rt false)) /\ shape r = k :: map (edim s) Rt;
    tw_other : forall m, m <> N1 -> m <> N2 -> m <> n -> s_nodes s' m = s_nodes s m;
    tw_n : left_over s s' n nd
  }.
  (** result of a three-way split: the middle node holds the diagonal matrix of the values [sv] *)
  Record three_way s s' (n : nid) (nd : node) (L Rt : list eid) (lname rname : option nat) (N1 N3 N2 : nid) (sv : list R) : Prop := {
    th_wf : wf s';
    th_new : ~ is_node s N1 /\ ~ is_node s N3 /\ ~ is_node s N2 /\ N1 <> N3 /\ N1 <> N2 /\ N3 <> N2;
    th_nodes : exists u c v g h, let k := length sv in s_ne s <= g /\ s_ne s <= h /\ g <> h /\
      s_nodes s' N1 = Some (Node u (L ++ [g]) (new_names nd lname rname L true)) /\ shape u = map (edim s) L ++ [k] /\
      s_nodes s' N3 = Some (Node c [g; h] (mid_names nd lname rname)) /\ shape c = [k; k] /\
      (forall i j, i < k -> j < k -> elt c [i; j] = if Nat.eqb i j then nth i sv r0 else r0) /\
      s_nodes s' N2 = Some (Node v (h :: Rt) (new_names nd lname rname Rt false)) /\ shape v = k :: map (edim s) Rt;
    th_other : forall m, m <> N1 -> m <> N3 -> m <> N2 -> m <> n -> s_nodes s' m = s_nodes s m;
    th_n : left_over s s' n nd
  }.

  (** M is the matrix of the node's tensor with row index the edges L and column index the edges Rt *)
  Definition unfolds s (nd : node) (L Rt : list eid) (M : tensor R) : Prop := shape M = [nprod (map (edim s) L); nprod (map (edim s) Rt)] /\
    forall b : eid -> nat, (forall e, In e (n_edges nd) -> b e < edim s e) ->
      elt M [ravel (map (edim s) L) (map b L); ravel (map (edim s) Rt) (map b Rt)] = elt (n_t nd) (map b (n_edges nd)).
  (** T is the tensor of the first k dyads of the decomposition *)
  Definition first_dyads s (nd : node) (L Rt : list eid) (k : nat) (u0 : tensor R) (sv : list R) (v0 T : tensor R) : Prop :=
    forall b : eid -> nat, (forall e, In e (n_edges nd) -> b e < edim s e) ->
      elt T (map b (n_edges nd)) =
      nsum k (fun j => elt u0 [ravel (map (edim s) L) (map b L); j] *! nth j sv r0 *! elt v0 [j; ravel (map (edim s) Rt) (map b Rt)]).

  Lemma value_own s n nd S a : s_nodes s n = Some nd -> value_with s nd (n_t nd) S a = netval s (n :: S) a.
  Proof. intros Hn. unfold value_with, netval. cbn [net_of map]. rewrite (fac_node Hn). reflexivity. Qed.

  Lemma names_left s n nd L Rt lb rb (tl : tensor R) k : bipartition s n nd L Rt -> shape tl = map (edim s) L ++ [k] ->
    nm_of (fst (bond_names nd L Rt lb rb)) tl = new_names nd lb rb L true.
  Proof.
    intros B Hs. assert (seq 0 (rank tl) = seq 0 (1 + length L)) as Hr by (f_equal; unfold rank; rewrite Hs, app_length, map_length; cbn; lia).
    unfold bond_names, new_names. destruct (n_names nd) as [|x0 r] eqn:E; [exact Hr|destruct lb as [x|]; [destruct rb as [y|]|]]; cbn [fst nm_of]; [|exact Hr..].
    unfold gather. rewrite map_map. f_equal. apply map_ext. intros e. unfold name_of, axis_of. rewrite E. reflexivity.
  Qed.
  Lemma names_right s n nd L Rt lb rb (tr : tensor R) k : bipartition s n nd L Rt -> shape tr = k :: map (edim s) Rt ->
    nm_of (snd (bond_names nd L Rt lb rb)) tr = new_names nd lb rb Rt false.
  Proof.
    intros B Hs. assert (seq 0 (rank tr) = seq 0 (1 + length Rt)) as Hr by (f_equal; unfold rank; rewrite Hs; cbn; rewrite map_length; reflexivity).
    unfold bond_names, new_names. destruct (n_names nd) as [|x0 r] eqn:E; [exact Hr|destruct lb as [x|]; [destruct rb as [y|]|]]; cbn [snd nm_of]; [|exact Hr..].
    unfold gather. rewrite map_map. f_equal. apply map_ext. intros e. unfold name_of, axis_of. rewrite E. reflexivity.
  Qed.
  Lemma names_mid nd L Rt lb rb (tm : tensor R) k : shape tm = [k; k] ->
    nm_of (match fst (bond_names nd L Rt lb rb), lb, rb with Some _, Some x, Some y => Some [x; y] | _, _, _ => None end) tm = mid_names nd lb rb.
  Proof.
    intros Hs. assert (seq 0 (rank tm) = [0; 1]) as Hr by (unfold rank; rewrite Hs; reflexivity).
    unfold bond_names, mid_names. destruct (n_names nd) as [|x0 r] eqn:E; [exact Hr|destruct lb as [x|]; [destruct rb as [y|]|]]; cbn [fst nm_of]; [reflexivity|exact Hr..].
  Qed.
  Lemma post_two_way s s' n nd L Rt name tl tr k N1 N2 g : bipartition s n nd L Rt -> shape tl = map (edim s) L ++ [k] -> shape tr = k :: map (edim s) Rt ->
    split_post s n nd L Rt s' tl tr (bond_names nd L Rt name name) N1 N2 g -> two_way s s' n nd L Rt name N1 N2.
  Proof.
    intros B H1 H2 P. split.
    - apply (sp_wf P).
    - split; [apply (sp_N1 P)|]. split; [apply (sp_N2 P)|apply (sp_12 P)].
    - exists tl, tr, k, g. split; [apply (sp_g P)|]. split; [rewrite (sp_n1 P), (names_left name name B H1); reflexivity|]. split; [exact H1|].
      split; [rewrite (sp_n2 P), (names_right name name B H2); reflexivity|exact H2].
    - apply (sp_other P).
    - apply (sp_n P).
  Qed.

  Theorem split_qr s n nd L Rt qrf name : wf s -> bipartition s n nd L Rt -> named s n -> unused nd name ->
    (forall m q r, rank m = 2 -> qrf m = (q, r) -> is_qr m q r) ->
    exists s' N1 N2, split_node_qr qrf n L Rt name s = (s', Some (N1, N2)) /\ two_way s s' n nd L Rt name N1 N2 /\
      forall S a, rest_ok s n S a -> netval s' (N1 :: N2 :: S) a = netval s (n :: S) a.
  Proof.
    intros W B Hnm Hu Hc. pose proof B as (Hn & HND & HP). destruct (split_qr_ok W Hn HND HP Hnm Hu Hc) as (s' & N1 & N2 & g & tl & tr & k & K & P & H1 & H2 & H3).
    exists s', N1, N2. split; [exact K|]. split; [apply (post_two_way B H1 H2 P)|]. intros S a (A1 & A2 & A3).
    rewrite <- (value_own S a Hn). symmetry. apply (sp_value P H1 A1 A2 A3 H3).
  Qed.
  Theorem split_rq s n nd L Rt qrf name : wf s -> bipartition s n nd L Rt -> named s n -> unused nd name ->
    (forall m q r, rank m = 2 -> qrf m = (q, r) -> is_qr m q r) ->
    exists s' N1 N2, split_node_rq qrf n L Rt name s = (s', Some (N1, N2)) /\ two_way s s' n nd L Rt name N1 N2 /\
      forall S a, rest_ok s n S a -> netval s' (N1 :: N2 :: S) a = netval s (n :: S) a.
  Proof.
    intros W B Hnm Hu Hc. pose proof B as (Hn & HND & HP). destruct (split_rq_ok W Hn HND HP Hnm Hu Hc) as (s' & N1 & N2 & g & tl & tr & k & K & P & H1 & H2 & H3).
    exists s', N1, N2. split; [exact K|]. split; [apply (post_two_way B H1 H2 P)|]. intros S a (A1 & A2 & A3).
    rewrite <- (value_own S a Hn). symmetry. apply (sp_value P H1 A1 A2 A3 H3).
  Qed.

  (** if all values dropped are zero the kept dyads give back the tensor *)
  Lemma dyads_all s n nd L Rt M u0 sv v0 k : wf s -> bipartition s n nd L Rt -> unfolds s nd L Rt M ->
    is_svd M u0 sv v0 -> (forall x, In x (skipn k sv) -> x = r0) ->
    first_dyads s nd L Rt (Nat.min k (length sv)) u0 sv v0 (n_t nd).
  Proof.
    intros W (Hn & HND & HP) [HMs HMe] (_ & _ & _ & Hs) Hz b Hb. rewrite <- (HMe b Hb). unfold rows, cols in Hs. rewrite HMs in Hs. cbn [nth] in Hs.
    assert (forall es, (forall e, In e es -> In e (L ++ Rt)) -> valid (map b es) (map (edim s) es)) as HV.
    { intros es Hes. apply valid_map. intros e He. apply Hb. apply (Permutation_in _ HP). apply Hes. exact He. }
    rewrite <- Hs by (apply ravel_lt; apply HV; intros e He; apply in_or_app; auto).
    assert (Nat.min k (length sv) <= length sv) as Hk by lia.
    rewrite (nsum_split _ Hk). rewrite (@lsum_zero R); [ring|]. intros j Hj. apply in_seq in Hj.
    replace (nth j sv r0) with (@r0 R); [ring|]. symmetry. apply Hz.
    rewrite <- (firstn_skipn k sv) at 1. rewrite app_nth2; rewrite firstn_length; [|lia]. apply nth_In. rewrite skipn_length. lia.
  Qed.

  Theorem split_svd s n nd L Rt svdf nkeep sqrtf name : wf s -> bipartition s n nd L Rt -> named s n -> unused nd name ->
    (forall m u sv vh, rank m = 2 -> svdf m = (u, sv, vh) -> is_svd m u sv vh) ->
    (forall m u sv vh x, svdf m = (u, sv, vh) -> In x sv -> sqrtf x *! sqrtf x = x) ->
    exists s' N1 N2 M u sv vh, split_node svdf nkeep sqrtf n L Rt name s = (s', Some (N1, N2, skipn (nkeep sv) sv)) /\
      unfolds s nd L Rt M /\ svdf M = (u, sv, vh) /\ two_way s s' n nd L Rt name N1 N2 /\
      (forall T S a, first_dyads s nd L Rt (Nat.min (nkeep sv) (length sv)) u sv vh T -> rest_ok s n S a ->
         netval s' (N1 :: N2 :: S) a = value_with s nd T S a) /\
      (forall S a, (forall x, In x (skipn (nkeep sv) sv) -> x = r0) -> rest_ok s n S a ->
         netval s' (N1 :: N2 :: S) a = netval s (n :: S) a).
  Proof.
    intros W B Hnm Hu Hc Hq. pose proof B as (Hn & HND & HP).
    destruct (split_svd_ok W Hn HND HP nkeep Hnm Hu Hc Hq) as (s' & N1 & N2 & g & tl & tr & M & u & sv & vh & K & P & H1 & H2 & H3 & H4 & H5 & H6).
    assert (forall T S a, first_dyads s nd L Rt (Nat.min (nkeep sv) (length sv)) u sv vh T -> rest_ok s n S a ->
         netval s' (N1 :: N2 :: S) a = value_with s nd T S a) as HT.
    { intros T S a HT (A1 & A2 & A3). symmetry. apply (sp_value P H1 A1 A2 A3 (H6 T HT)). }
    exists s', N1, N2, M, u, sv, vh. split; [exact K|]. split; [split; assumption|]. split; [exact H3|]. split; [apply (post_two_way B H1 H2 P)|].
    split; [exact HT|]. intros S a Hz HS. rewrite <- (value_own S a Hn). apply HT; [|exact HS].
    apply (@dyads_all s n nd L Rt M u sv vh (nkeep sv) W B); [split; assumption|apply Hc; [unfold rank; rewrite H4; reflexivity|exact H3]|exact Hz].
  Qed.

  Theorem split_full s n nd L Rt svdf nkeep lname rname : wf s -> bipartition s n nd L Rt -> named s n -> unused nd lname -> unused nd rname ->
    (lname <> None -> lname <> rname) ->
    (forall m u sv vh, rank m = 2 -> svdf m = (u, sv, vh) -> is_svd m u sv vh) ->
    exists s' N1 N3 N2 M u sv vh, split_node_full_svd svdf nkeep n L Rt lname rname s = (s', Some (N1, N3, N2, skipn (nkeep sv) sv)) /\
      unfolds s nd L Rt M /\ svdf M = (u, sv, vh) /\ three_way s s' n nd L Rt lname rname N1 N3 N2 (firstn (nkeep sv) sv) /\
      (forall T S a, first_dyads s nd L Rt (Nat.min (nkeep sv) (length sv)) u sv vh T -> rest_ok s n S a ->
         netval s' (N1 :: N3 :: N2 :: S) a = value_with s nd T S a) /\
      (forall S a, (forall x, In x (skipn (nkeep sv) sv) -> x = r0) -> rest_ok s n S a ->
         netval s' (N1 :: N3 :: N2 :: S) a = netval s (n :: S) a).
  Proof.
    intros W B Hnm Hu1 Hu2 Hlr Hc. pose proof B as (Hn & HND & HP).
    assert (forall x, lname = Some x \/ rname = Some x -> ~ In x (n_names nd)) as Hu by (intros x [E|E]; [apply Hu1|apply Hu2]; exact E).
    destruct (full_svd_ok W Hn HND HP nkeep Hnm Hu Hlr Hc) as (s' & N1 & N3 & N2 & g & h & tl & tm & tr & M & u & sv & vh & K & P & H1 & H1' & H2 & H3 & H4 & Hd & H5 & H6).
    assert (forall T S a, first_dyads s nd L Rt (Nat.min (nkeep sv) (length sv)) u sv vh T -> rest_ok s n S a ->
         netval s' (N1 :: N3 :: N2 :: S) a = value_with s nd T S a) as HT.
    { intros T S a HT (A1 & A2 & A3). symmetry. apply (fs_value P H1 A1 A2 A3 (H6 T HT)). }
    exists s', N1, N3, N2, M, u, sv, vh. split; [exact K|]. split; [split; assumption|]. split; [exact H3|]. split; [|split; [exact HT|]].
    - split.
      + apply (fs_wf P).
      + repeat split; [apply (fs_N1 P)|apply (fs_N3 P)|apply (fs_N2 P)|apply (fs_13 P)|apply (fs_12 P)|apply (fs_32 P)].
      + exists tl, tm, tr, g, h. cbv zeta. rewrite firstn_length.
        split; [apply (fs_g P)|]. split; [apply (fs_h P)|]. split; [apply (fs_gh P)|].
        split; [rewrite (fs_n1 P), (names_left _ _ B H1); reflexivity|]. split; [exact H1|].
        split; [rewrite (fs_n3 P), (names_mid _ _ _ _ _ H1'); reflexivity|]. split; [exact H1'|].
        split; [|split; [rewrite (fs_n2 P), (names_right _ _ B H2); reflexivity|exact H2]].
        intros i j Hi Hj. rewrite (Hd i j Hi Hj). rewrite <- (firstn_skipn (nkeep sv) sv) at 1. rewrite app_nth1 by (rewrite firstn_length; exact Hi). reflexivity.
      + apply (fs_other P).
      + apply (fs_n P).
    - intros S a Hz HS. rewrite <- (value_own S a Hn). apply HT; [|exact HS].
      apply (@dyads_all s n nd L Rt M u sv vh (nkeep sv) W B); [split; assumption|apply Hc; [unfold rank; rewrite H4; reflexivity|exact H3]|exact Hz].
  Qed.

  (** ** Edge lists that do not split the node are rejected *)
  Lemma own_axis_inv s n e ax s' : wf s -> (exists m, on s m e) -> own_axis n e s = (s', Some ax) -> s' = s /\ slot s (n, ax) = Some e.
  Proof.
    intros W (m & k & Hm) H. destruct (wf_slot W Hm) as (ed & E1 & E2 & _ & _ & E5).
    unfold own_axis, bind, get_edge in H. rewrite E1, E2 in H.
    assert (forall p, In p (ends ed) -> slot s p = Some e) as Hp by (intros p Hp; apply E5; auto).
    unfold ends in Hp. destruct (Nat.eqb_spec (e_n1 ed) n) as [<-|].
    - injection H as <- <-. split; [reflexivity|]. apply Hp. left. reflexivity.
    - destruct (e_2 ed) as [[n2 a2]|]; [|discriminate]. destruct (Nat.eqb_spec n2 n) as [->|]; [|discriminate].
      injection H as <- <-. split; [reflexivity|]. apply Hp. right. left. reflexivity.
  Qed.
  Lemma own_axes_inv s n es s' axs : wf s -> (forall e, In e es -> exists m, on s m e) -> mmap (own_axis n) es s = (s', Some axs) ->
    let ax e := match snd (own_axis n e s) with Some a => a | None => 0 end in
    s' = s /\ axs = map ax es /\ forall e, In e es -> slot s (n, ax e) = Some e.
  Proof.
    intros W. revert s' axs. induction es as [|e es IH]; intros s' axs He H; cbn [mmap] in H.
    - injection H as <- <-. split; [reflexivity|]. split; [reflexivity|]. intros e [].
    - unfold bind at 1 in H. destruct (own_axis n e s) as [s1 [a|]] eqn:E; [|discriminate].
      destruct (own_axis_inv W (He e (or_introl eq_refl)) E) as [-> Ha]. unfold bind in H.
      destruct (mmap (own_axis n) es s) as [s2 [axs'|]] eqn:E2; [|discriminate]. injection H as <- <-.
      destruct (IH s2 axs' (fun x Hx => He x (or_intror Hx)) eq_refl) as (-> & -> & K). split; [reflexivity|]. cbn [map].
      rewrite E. cbn [snd]. split; [reflexivity|]. intros x [<-|Hx]; [rewrite E; exact Ha|apply K, Hx].
  Qed.
  Lemma order_inv s n nd L Rt s' t : wf s -> s_nodes s n = Some nd -> (forall e, In e (L ++ Rt) -> exists m, on s m e) ->
    tensor_from_edge_order n (L ++ Rt) s = (s', Some t) -> bipartition s n nd L Rt.
  Proof.
    intros W Hn He H. unfold tensor_from_edge_order, bind at 1, get_node in H. rewrite Hn in H. unfold bind at 1 in H.
    destruct (mmap (own_axis n) (L ++ Rt) s) as [s1 [axs|]] eqn:E; [|discriminate].
    destruct (own_axes_inv W He E) as (-> & Hax & Hs). set (ax := fun e => match snd (own_axis n e s) with Some a => a | None => 0 end) in *.
    unfold bind, guard in H. destruct (is_permb (rank (n_t nd)) axs) eqn:Ep; [|discriminate]. apply is_permb_spec in Ep.
    split; [exact Hn|]. split.
    - apply (NoDup_map_inv ax). rewrite <- Hax. apply (Permutation_NoDup (Permutation_sym Ep)). apply seq_NoDup.
    - assert (L ++ Rt = gather 0 (n_edges nd) axs) as ->.
      { rewrite Hax. unfold gather. rewrite map_map. symmetry. rewrite <- (map_id (L ++ Rt)) at 2. apply map_ext_in. intros e Hi.
        specialize (Hs e Hi). unfold slot in Hs. cbn [fst snd] in Hs. rewrite Hn in Hs. apply nth_error_nth. exact Hs. }
      rewrite <- (wf_rank W Hn) in Ep. unfold is_perm in Ep. unfold gather. apply (Permutation_map (fun i => nth i (n_edges nd) 0)) in Ep. rewrite Ep.
      fold (gather 0 (n_edges nd) (seq 0 (length (n_edges nd)))). rewrite gather_seq. reflexivity.
  Qed.
  Lemma split_names_same s n L Rt lb rb s' x : split_names n L Rt lb rb s = (s', Some x) -> s' = s.
  Proof.
    assert (forall e s s' a, node_axis n e s = (s', Some a) -> s' = s) as H1.
    { intros e s0 s0' a H. unfold node_axis, bind, get_edge in H. destruct (s_edges s0 e) as [ed|]; [|discriminate]. destruct (e_dis ed); [discriminate|].
      destruct (Nat.eqb (e_n1 ed) n); [|destruct (e_2 ed) as [[n2 a2]|]; [|discriminate]]; unfold ret in H; injection H as <- _; reflexivity. }
    assert (forall es s s' x, mmap (node_axis n) es s = (s', Some x) -> s' = s) as Hm.
    { induction es as [|e es IH]; intros s0 s0' y H; cbn [mmap] in H; [unfold ret in H; injection H as <- _; reflexivity|]. unfold bind at 1 in H.
      destruct (node_axis n e s0) as [s1 [a|]] eqn:E1; [|discriminate]. apply H1 in E1. subst s1. unfold bind in H.
      destruct (mmap (node_axis n) es s0) as [s1 [l|]] eqn:E; [|discriminate]. unfold ret in H. injection H as <- _. apply (IH _ _ _ E). }
    unfold split_names, bind at 1, get_node. destruct (s_nodes s n) as [nd|]; [|discriminate].
    destruct (n_names nd) as [|y r]; [unfold ret; intros H; injection H as <- _; reflexivity|]. destruct lb as [lb|]; [|unfold ret; intros H; injection H as <- _; reflexivity].
    destruct rb as [rb|]; [|unfold ret; intros H; injection H as <- _; reflexivity].
    intros H. unfold bind at 1 in H. destruct (mmap (node_axis n) L s) as [s1 [al|]] eqn:E1; [|discriminate]. apply Hm in E1. subst s1.
    unfold bind at 1, names_at, bind at 1, guard in H. destruct (forallb _ al); [|discriminate]. cbn [ret] in H.
    unfold bind at 1 in H. destruct (mmap (node_axis n) Rt s) as [s2 [ar|]] eqn:E2; [|discriminate]. apply Hm in E2. subst s2.
    unfold bind at 1, names_at, bind at 1, guard in H. destruct (forallb _ ar); [|discriminate]. unfold ret in H. injection H as <- _. reflexivity.
  Qed.
  Lemma split_needs A s n nd L Rt lb rb (K : _ -> tensor R -> M A) s' x : wf s -> s_nodes s n = Some nd -> (forall e, In e (L ++ Rt) -> exists m, on s m e) ->
    bind (split_names n L Rt lb rb) (fun nms => bind (tensor_from_edge_order n (L ++ Rt)) (K nms)) s = (s', Some x) -> bipartition s n nd L Rt.
  Proof.
    intros W Hn He H. unfold bind at 1 in H. destruct (split_names n L Rt lb rb s) as [s1 [nms|]] eqn:E; [|discriminate]. apply split_names_same in E. subst s1.
    unfold bind at 1 in H. destruct (tensor_from_edge_order n (L ++ Rt) s) as [s1 [t|]] eqn:E; [|discriminate]. apply (order_inv W Hn He E).
  Qed.
  Theorem split_rejects s n nd L Rt qrf svdf nkeep sqrtf b1 b2 : wf s -> s_nodes s n = Some nd -> (forall e, In e (L ++ Rt) -> exists m, on s m e) ->
    ~ (NoDup (L ++ Rt) /\ Permutation (L ++ Rt) (n_edges nd)) ->
    snd (split_node_qr qrf n L Rt b1 s) = None /\ snd (split_node_rq qrf n L Rt b1 s) = None /\
    snd (split_node svdf nkeep sqrtf n L Rt b1 s) = None /\ snd (split_node_full_svd svdf nkeep n L Rt b1 b2 s) = None.
  Proof.
    intros W Hn He HB.
    assert (forall A lb rb (K : _ -> tensor R -> M A), snd (bind (split_names n L Rt lb rb) (fun nms => bind (tensor_from_edge_order n (L ++ Rt)) (K nms)) s) = None) as H.
    { intros A lb rb K. destruct (bind _ _ s) as [s' [x|]] eqn:E; [|reflexivity]. destruct (split_needs W Hn He E) as [_ B]. contradiction. }
    split; [|split; [|split]]; apply H.
  Qed.
End Spec.

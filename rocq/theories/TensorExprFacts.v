(** * Proofs about products of labelled tensors *)
From Coq Require Import ZArith String Ascii Sorting.Sorted Lia.
From Verif Require Import Prelude Algebra Tensor TensorFacts Res Einsum EinsumFacts Ncon NconSpec NconTop NconMain Linalg LinalgSpec LinalgFacts GraphCopy TensorExpr TensorExprSpec.
Set Implicit Arguments.
Unset Strict Implicit.
Open Scope list_scope.
Open Scope nat_scope.

Lemma valid_rev : forall ix sh, valid ix sh -> valid (rev ix) (rev sh).
Proof.
  unfold valid. induction 1 as [|x y l r H _ IH]; [constructor|]. cbn [rev]. apply Forall2_app; [exact IH|repeat constructor; exact H].
Qed.

Lemma concat_perm A (l l' : list (list A)) : Permutation l l' -> Permutation (concat l) (concat l').
Proof.
  induction 1; cbn [concat]; [constructor|apply Permutation_app_head; assumption| |eapply Permutation_trans; eassumption].
  rewrite !app_assoc. apply Permutation_app_tail, Permutation_app_comm.
Qed.

Section Perm.
  Variables ns ns' : list (list label).
  Hypothesis P : Permutation ns ns'.
  Let PC : Permutation (concat ns) (concat ns') := concat_perm P.

  Lemma perm_count l : count_occ label_dec (concat ns) l = count_occ label_dec (concat ns') l.
  Proof. apply Permutation_count_occ, PC. Qed.
  Lemma perm_in l : In l (concat ns) <-> In l (concat ns').
  Proof. split; apply Permutation_in; [|apply Permutation_sym]; exact PC. Qed.
  Lemma perm_lists Q ls : lists_labels Q ns ls -> lists_labels Q ns' ls.
  Proof. intros [N H]. split; [exact N|]. intros l. rewrite <- perm_in. apply H. Qed.
  Lemma perm_ordinary : ordinary ns -> ordinary ns'.
  Proof.
    intros H ls l Hls Hl. rewrite <- perm_count. apply H; [|exact Hl]. apply (Permutation_in _ (Permutation_sym P)), Hls.
  Qed.
  Lemma perm_pairwise : pairwise ns -> pairwise ns'.
  Proof.
    intros [H1 H2]. split.
    - intros l Hl. rewrite <- perm_count. apply H1, Hl.
    - intros ls l l' Hls. rewrite <- !perm_count. apply H2. apply (Permutation_in _ (Permutation_sym P)), Hls.
  Qed.
  Lemma perm_out o : out_spec ns None o -> out_spec ns' None o.
  Proof. intros [H S]. split; [apply perm_lists, H|exact S]. Qed.
End Perm.

Section Facts.
  Context {R : cjr}.
  Notation Tens := (@Tens R).
  Notation expr := (@expr R).

  Lemma build_leaves (e : expr) : build e = (map fst (leaves e), labels e).
  Proof.
    induction e as [a ls|e1 IH1 e2 IH2]; [reflexivity|]. cbn [build leaves]. rewrite IH1, IH2. unfold b_matmul, labels.
    cbn [fst snd leaves]. rewrite !map_app. reflexivity.
  Qed.
  Lemma leaves_nonempty (e : expr) : leaves e <> [].
  Proof. induction e as [a ls|e1 IH1 e2 _]; [discriminate|]. cbn. intros E. apply app_eq_nil in E. tauto. Qed.

  Variable iter : list Z -> list Z.
  Hypothesis iter_perm : forall l, Permutation (iter l) l.

  Lemma finalize_names b (e : expr) : (forall x, In x (leaves e) -> fst (fst x) = b) ->
    finalize iter (build e) = rbind (ncon iter true (arrays e) (labels e) None None) (fun x => Ok (b, x)).
  Proof.
    intros H. unfold finalize. rewrite build_leaves. cbn [fst snd].
    destruct (map fst (leaves e)) as [|t r] eqn:E; [apply map_eq_nil in E; destruct (leaves_nonempty E)|].
    assert (Hin : forall u, In u (map fst (leaves e)) -> fst u = b).
    { intros u Hu. apply in_map_iff in Hu. destruct Hu as (y & <- & Hy). apply H, Hy. }
    rewrite E in Hin. rewrite (Hin t (or_introl eq_refl)). unfold ncon_tens.
    match goal with |- (if ?c then _ else _) = _ => replace c with true end.
    - rewrite <- E, map_map. reflexivity.
    - symmetry. apply forallb_forall. intros u Hu. apply String.eqb_eq, Hin, Hu.
  Qed.

  Theorem finalize_mixed (e : expr) x y : In x (leaves e) -> In y (leaves e) -> fst (fst x) <> fst (fst y) ->
    finalize iter (build e) = Raise.
  Proof.
    intros Hx Hy Hne. unfold finalize. rewrite build_leaves. cbn [fst snd].
    destruct (map fst (leaves e)) as [|t r] eqn:E; [reflexivity|]. unfold ncon_tens. rewrite <- E.
    destruct (forallb (fun t0 => String.eqb (fst t0) (fst t)) (map fst (leaves e))) eqn:F; [|reflexivity].
    exfalso. rewrite forallb_forall in F. apply Hne.
    transitivity (fst t); [|symmetry]; apply String.eqb_eq, F, in_map; assumption.
  Qed.

  Theorem finalize_value dim b (e : expr) o : (forall x, In x (leaves e) -> fst (fst x) = b) ->
    sized dim (arrays e) (labels e) -> ordinary (labels e) -> pairwise (labels e) ->
    (forall l, In l (concat (labels e)) -> label_ok l) -> out_spec (labels e) None o ->
    exists t, finalize iter (build e) = Ok (b, t) /\ is_value dim (arrays e) (labels e) o t.
  Proof.
    intros Hb Hs Ho Hp Hl Hout. rewrite (finalize_names Hb).
    assert (Hne : labels e <> []).
    { pose proof (@leaves_nonempty e). unfold labels. destruct (leaves e); [congruence|discriminate]. }
    destruct (ncon_total iter_perm true Hs Ho Hp Hne Hl (con := None) I Hout) as (t & E & V).
    exists t. rewrite E. split; [reflexivity|exact V].
  Qed.

  Lemma network_leaves (e : expr) : network (arrays e) (labels e) = map (fun x => (snd (fst x), snd x)) (leaves e).
  Proof.
    unfold network, arrays, labels. induction (leaves e) as [|x l IH]; [reflexivity|]. cbn [map combine]. rewrite IH. reflexivity.
  Qed.

  (** the result does not depend on the brackets and on the order of the factors *)
  Theorem finalize_order dim b (e e' : expr) : Permutation (leaves e) (leaves e') ->
    (forall x, In x (leaves e) -> fst (fst x) = b) ->
    sized dim (arrays e) (labels e) -> ordinary (labels e) -> pairwise (labels e) ->
    (forall l, In l (concat (labels e)) -> label_ok l) ->
    exists t t', finalize iter (build e) = Ok (b, t) /\ finalize iter (build e') = Ok (b, t') /\ teq t t'.
  Proof.
    intros P Hb Hs Ho Hp Hl. destruct (out_default_exists (labels e)) as (o & Hout).
    assert (PN : Permutation (labels e) (labels e')) by (apply Permutation_map, P).
    destruct (finalize_value Hb Hs Ho Hp Hl Hout) as (t & E & S & V).
    assert (Hs' : sized dim (arrays e') (labels e')).
    { split; [unfold arrays, labels; rewrite !map_length; reflexivity|]. intros x Hx. apply Hs.
      rewrite network_leaves in *. apply (Permutation_in _ (Permutation_sym (Permutation_map _ P))), Hx. }
    destruct (@finalize_value dim b e' o) as (t' & E' & S' & V').
    - intros x Hx. apply Hb, (Permutation_in _ (Permutation_sym P)), Hx.
    - exact Hs'.
    - apply (perm_ordinary PN), Ho.
    - apply (perm_pairwise PN), Hp.
    - intros l Hin. apply Hl, (perm_in PN), Hin.
    - apply (perm_out PN), Hout.
    - exists t, t'. split; [exact E|split; [exact E'|]]. split; [congruence|]. intros ix Hix. rewrite S in Hix.
      destruct Hout as [[No Io] _]. destruct (assign_exists No Hix) as (a & <- & Ra).
      destruct (closed_exists (labels e)) as (cl & Hcl). rewrite (V cl a Hcl Ra), (V' cl a (perm_lists PN Hcl) Ra).
      unfold einsum. apply esum_ext. intros c. rewrite !network_leaves. apply netprod_perm, Permutation_map, P.
  Qed.

  (** ** conjugates *)
  Theorem H_ok (a : Tens) : exists x, t_H a = Ok (fst a, x) /\ t_hconj a None = Ok (fst a, x) /\ shape x = rev (shape (snd a)) /\
    forall ix, valid ix (shape (snd a)) -> elt x (rev ix) = cj (elt (snd a) ix).
  Proof.
    exists (transpose (conj_t (snd a)) (rev (seq 0 (rank (snd a))))). split; [reflexivity|split; [reflexivity|]].
    set (t := conj_t (snd a)). assert (Rt : rank t = rank (snd a)) by reflexivity. rewrite <- Rt.
    assert (Hp : is_perm (rank t) (rev (seq 0 (rank t)))) by (unfold is_perm; apply Permutation_sym, Permutation_rev).
    destruct (transpose_meets Hp) as [S V].
    assert (G : forall (l : list nat), List.length l = rank t -> gather 0 l (rev (seq 0 (rank t))) = rev l).
    { intros l El. unfold gather. rewrite map_rev. f_equal. rewrite <- El. apply (gather_seq 0 l). }
    split; [rewrite S; apply G; reflexivity|]. intros ix Hix. transitivity (elt t ix); [|reflexivity].
    rewrite <- (V ix Hix). f_equal. symmetry. apply (G ix). exact (valid_length Hix).
  Qed.

  Theorem hconj_ok (a : Tens) z u : t_hconj a (Some z) = Ok u -> fst u = fst a /\
    exists p, is_perm (rank (snd a)) p /\
      Forall2 (fun i j => i = Z.of_nat j \/ i = (Z.of_nat j - Z.of_nat (rank (snd a)))%Z) z p /\
      shape (snd u) = map (fun i => nth i (shape (snd a)) 0) p /\
      forall ix, valid ix (shape (snd a)) -> elt (snd u) (map (fun i => nth i ix 0) p) = cj (elt (snd a) ix).
  Proof.
    unfold t_hconj, t_transpose. intros E. destruct (np_transpose (snd (t_conj a)) (Some z)) as [x| |] eqn:En; [|discriminate|discriminate].
    injection E as <-. cbn [fst snd t_conj]. split; [reflexivity|].
    destruct (np_transpose_ok En) as (p & Hp & [S V] & F). exists p. split; [exact Hp|split; [exact F|split; [exact S|]]].
    intros ix Hix. exact (V ix Hix).
  Qed.
  Theorem hconj_total (a : Tens) p : is_perm (rank (snd a)) p -> exists x, t_hconj a (Some (map Z.of_nat p)) = Ok (fst a, x).
  Proof.
    intros Hp. unfold t_hconj, t_transpose. rewrite (@np_transpose_nat _ (snd (t_conj a)) p Hp). eexists. reflexivity.
  Qed.

  (** taking the conjugate with reversed axes twice gives the tensor back *)
  Theorem H_involutive (a : Tens) : exists x y, t_H a = Ok x /\ t_H x = Ok y /\ fst y = fst a /\ teq (snd y) (snd a).
  Proof.
    destruct (H_ok a) as (x & E & _ & S & V). destruct (H_ok (fst a, x)) as (y & E' & _ & S' & V'). cbn [fst snd] in *.
    exists (fst a, x), (fst a, y). split; [exact E|split; [exact E'|split; [reflexivity|]]]. cbn [snd].
    assert (Sy : shape y = shape (snd a)) by (rewrite S', S; apply rev_involutive).
    split; [exact Sy|]. intros ix Hix. rewrite Sy in Hix.
    assert (Hr : valid (rev ix) (shape x)) by (rewrite S; apply valid_rev, Hix).
    pose proof (V' _ Hr) as W. rewrite rev_involutive in W. rewrite W, (V _ Hix). apply cj_inv.
  Qed.
End Facts.

(** * NconMain: the theorems about ncon, assembled from NconTop.v and NconCheck.v *)
From Coq Require Import ZArith String Ascii Sorting.Sorted Permutation.
From Verif Require Import Prelude Algebra Tensor TensorFacts Einsum EinsumFacts NetworkFacts Ncon NconFacts NconProof NconSpec NconTop NconCheck.
Set Implicit Arguments.
Unset Strict Implicit.
Open Scope list_scope.
Open Scope nat_scope.

(** every closed label on exactly two axes, every open label on exactly one *)
Definition standard (ns : list (list label)) : Prop :=
  forall l, In l (List.concat ns) -> (Open l /\ count_occ label_dec (List.concat ns) l = 1) \/
                                     (~ Open l /\ count_occ label_dec (List.concat ns) l = 2).
(** axes with the same open label have the same size *)
Definition open_sizes (ns : list (list label)) (dims : list (list nat)) : Prop :=
  forall l d d', Open l -> axis ns dims l d -> axis ns dims l d' -> d = d'.

Lemma count_concat_le ns ls l : In ls ns -> count_occ label_dec ls l <= count_occ label_dec (List.concat ns) l.
Proof.
  induction ns as [|x r IH]; [intros []|]. intros [->|H]; cbn [List.concat]; rewrite count_occ_app; [lia|].
  specialize (IH H). lia.
Qed.
Lemma standard_ordinary ns : standard ns -> ordinary ns.
Proof.
  intros H ls l Hls Hl.
  pose proof (count_concat_le l Hls) as Le.
  assert (0 < count_occ label_dec ls l) as Pos by (apply count_occ_In; exact Hl).
  destruct (H l) as [[O C]|[O C]].
  - apply in_concat. eauto.
  - left. lia.
  - destruct (Nat.eq_dec (count_occ label_dec ls l) 1); [left; assumption|]. right. repeat split; try assumption. lia.
Qed.
Lemma standard_pairwise ns : standard ns -> pairwise ns.
Proof.
  intros H. split.
  - intros l O. destruct (in_dec label_dec l (List.concat ns)) as [i|i].
    + destruct (H l i) as [[? _]|[_ C]]; [tauto | lia].
    + apply (count_occ_not_In label_dec) in i. lia.
  - intros ls l l' Hls Hl O O' C. exfalso. destruct (H l) as [[? _]|[_ E]]; [apply in_concat; eauto | tauto | lia].
Qed.

Lemma con_spec_iff ns con : con_spec ns con <-> forall c, none_if_empty con = Some c -> lists_closed ns c.
Proof.
  destruct con as [[|x r]|]; cbn; split; auto; try (intros; discriminate).
  - intros H c E. congruence.
Qed.
Lemma out_open ns out o : out_spec ns out o -> forall c, none_if_empty out = Some c -> lists_open ns c.
Proof.
  intros [H E] c Hc. destruct out as [[|x r]|]; cbn in *; try discriminate. injection Hc as <-. subst o. exact H.
Qed.

(** the default order exists *)
Lemma out_default_exists ns : exists o, out_spec ns None o.
Proof.
  exists (rev (neg_str_labels (List.concat ns) ++ neg_int_labels (List.concat ns))).
  split; [|apply ns_sorted]. split; [apply NoDup_rev, NoDup_ns|]. intros l. rewrite <- in_rev. apply In_ns.
Qed.
Lemma out_spec_exists ns out : (forall c, none_if_empty out = Some c -> lists_open ns c) -> exists o, out_spec ns out o.
Proof.
  intros H. destruct (out_default_exists ns) as (o & Ho). destruct out as [[|x r]|].
  - exists o. exact Ho.
  - exists (x :: r). split; [apply H; reflexivity | reflexivity].
  - exists o. exact Ho.
Qed.

Section Main.
  Context {R : csr}.
  Implicit Types ts : list (tensor R).
  Let T0 : tensor R := Tensor [] (fun _ => r0).

  Lemma sized_axis dim ts ns : sized dim ts ns -> forall l d, axis ns (map shape ts) l d -> d = dim l.
  Proof.
    intros [Hlen Hf] l d (n & k & H1 & H2).
    assert (n < List.length ns) as Hn.
    { destruct (Nat.lt_ge_cases n (List.length ns)) as [|Hge]; [assumption|]. rewrite (nth_overflow _ _ Hge) in H1. destruct k; discriminate. }
    assert (nth n (map shape ts) [] = shape (nth n ts T0)) as E.
    { rewrite (nth_indep _ [] (shape T0)) by (rewrite map_length; lia). apply map_nth. }
    rewrite E in H2.
    assert (In (nth n ts T0, nth n ns []) (network ts ns)) as Hin.
    { unfold network. rewrite <- combine_nth by exact Hlen. apply nth_In. rewrite combine_length. lia. }
    specialize (Hf _ Hin). unfold fits in Hf. cbn [fst snd] in Hf. rewrite Hf in H2.
    rewrite (map_nth_error dim _ _ H1) in H2. congruence.
  Qed.
  Lemma sized_valid dim ts ns con out o :
    sized dim ts ns -> (forall l, In l (List.concat ns) -> label_ok l) -> con_spec ns con -> out_spec ns out o ->
    Valid ns (map shape ts) (none_if_empty con) (none_if_empty out).
  Proof.
    intros Hs Hok Hc Ho. pose proof Hs as [Hlen Hf]. constructor.
    - rewrite map_length. auto.
    - intros n. destruct (Nat.lt_ge_cases n (List.length ns)) as [Hn|Hn].
      2:{ rewrite !nth_overflow; [reflexivity | rewrite map_length; lia | lia]. }
      rewrite (nth_indep (map shape ts) [] (shape T0)) by (rewrite map_length; lia). rewrite map_nth.
      assert (In (nth n ts T0, nth n ns []) (network ts ns)) as Hin.
      { unfold network. rewrite <- combine_nth by exact Hlen. apply nth_In. rewrite combine_length. lia. }
      specialize (Hf _ Hin). unfold fits in Hf. cbn [fst snd] in Hf. rewrite Hf, map_length. reflexivity.
    - exact Hok.
    - apply con_spec_iff, Hc.
    - eapply out_open, Ho.
    - intros l d d' _ H1 H2. rewrite (sized_axis Hs H1), (sized_axis Hs H2). reflexivity.
  Qed.

  (** sizes can be read off a valid network *)
  Lemma valid_sized ts ns con out :
    Valid ns (map shape ts) con out -> open_sizes ns (map shape ts) -> exists dim, sized dim ts ns.
  Proof.
    intros V Op.
    set (axes := flat_map (fun x => combine (fst x) (snd x)) (combine ns (map shape ts))).
    set (g := fun l => match find (fun p => if label_dec (fst p) l then true else false) axes with Some p => snd p | None => 0 end).
    exists g.
    pose proof (v_len V) as Hl. rewrite map_length in Hl. split; [auto|].
    assert (forall l d, axis ns (map shape ts) l d -> g l = d) as K.
    { intros l d H. unfold g. destruct (find _ axes) as [[l' d']|] eqn:E.
      - apply find_some in E. destruct E as [Hin E]. cbn in E. destruct (label_dec l' l) as [->|]; [|discriminate].
        apply In_axes in Hin. cbn. destruct (Open_dec l) as [O|O]; [eapply Op | eapply (v_dim V)]; eassumption.
      - apply In_axes in H. apply (find_none _ _ E) in H. cbn in H. destruct (label_dec l l); congruence. }
    intros x Hx. unfold network in Hx. set (d0 := (T0, @nil label)).
    apply (In_nth _ _ d0) in Hx. destruct Hx as (n & Hn & <-).
    rewrite combine_length in Hn. unfold d0. rewrite combine_nth by (symmetry; exact Hl). unfold fits. cbn [fst snd].
    set (t := nth n ts _). set (ls := nth n ns []).
    assert (nth n (map shape ts) [] = shape t) as Es.
    { rewrite (nth_indep _ [] (shape T0)) by (rewrite map_length; lia). unfold t. rewrite map_nth. reflexivity. }
    apply (nth_ext _ _ 0 0).
    - rewrite (map_length _ ls), <- Es. unfold ls. symmetry. apply (v_rank V).
    - intros k Hk. assert (k < List.length ls) as Hk' by (unfold ls; rewrite (v_rank V n), Es; exact Hk).
      rewrite (nth_indep (map g ls) 0 (g (LInt 0)))
        by (rewrite map_length; exact Hk').
      rewrite map_nth. symmetry. apply K. exists n, k. split.
      + apply nth_error_nth'. exact Hk'.
      + rewrite Es. apply nth_error_nth'. exact Hk.
  Qed.

  Variable iter : list Z -> list Z.
  Hypothesis iter_perm : forall l, Permutation (iter l) l.

  (** networks with arbitrary batch labels: whatever is returned is the Einstein sum *)
  Theorem ncon_value dim check ts ns con out o t :
    sized dim ts ns -> ordinary ns -> con_spec ns con -> out_spec ns out o ->
    ncon iter check ts ns con out = Ok t -> is_value dim ts ns o t.
  Proof.
    intros H1 H2 H3 H4 E. pose proof (ncon_correct iter_perm check H1 H2 H3 H4) as H. rewrite E in H. exact H.
  Qed.

  Theorem ncon_total dim check ts ns con out o :
    sized dim ts ns -> ordinary ns -> pairwise ns -> ns <> [] -> (forall l, In l (List.concat ns) -> label_ok l) ->
    con_spec ns con -> out_spec ns out o ->
    exists t, ncon iter check ts ns con out = Ok t /\ is_value dim ts ns o t.
  Proof.
    intros H1 H2 Hp Hne Hok H3 H4. pose proof (ncon_correct iter_perm check H1 H2 H3 H4) as H.
    destruct (ncon iter check ts ns con out) as [t| |]; [eauto| |destruct H].
    exfalso. destruct H as [[_ H]|[(l & Hl & H)|[H|H]]]; try tauto.
    - apply not_true_iff_false in H. apply H, check_network_iff. eapply sized_valid; eassumption.
    - apply H, Hok, Hl.
  Qed.

  Theorem ncon_standard dim check ts ns con out o :
    sized dim ts ns -> standard ns -> ns <> [] -> (forall l, In l (List.concat ns) -> label_ok l) ->
    con_spec ns con -> out_spec ns out o ->
    exists t, ncon iter check ts ns con out = Ok t /\ is_value dim ts ns o t.
  Proof.
    intros H1 H2. apply ncon_total; [exact H1 | apply standard_ordinary, H2 | apply standard_pairwise, H2].
  Qed.

  (** validation *)
  Theorem ncon_rejects ts ns con out t :
    ncon iter true ts ns con out = Ok t -> Valid ns (map shape ts) (none_if_empty con) (none_if_empty out).
  Proof.
    unfold ncon. cbn [negb orb]. destruct (check_network _ _ _ _) eqn:E; cbn [guard]; [|discriminate].
    intros _. apply check_network_iff, E.
  Qed.
  Theorem ncon_rejects_raise ts ns con out :
    ~ Valid ns (map shape ts) (none_if_empty con) (none_if_empty out) -> ncon iter true ts ns con out = Raise.
  Proof.
    intros H. rewrite <- check_network_iff in H. apply not_true_iff_false in H. unfold ncon. cbn [negb orb]. rewrite H. reflexivity.
  Qed.
  Theorem ncon_accepts ts ns con out :
    ordinary ns -> pairwise ns -> ns <> [] -> open_sizes ns (map shape ts) ->
    ((exists t, ncon iter true ts ns con out = Ok t) <-> Valid ns (map shape ts) (none_if_empty con) (none_if_empty out)).
  Proof.
    intros H1 H2 H3 H4. split.
    - intros [t E]. eapply ncon_rejects, E.
    - intros V. destruct (valid_sized V H4) as [dim Hs].
      destruct (out_spec_exists (v_out V)) as [o Ho].
      destruct (ncon_total true Hs H1 H2 H3 (v_lab V) (proj2 (con_spec_iff ns con) (v_con V)) Ho) as (t & E & _). eauto.
  Qed.

  (** ** equalities between calls *)
  Lemma assign_exists (dim : label -> nat) o ix : NoDup o -> valid ix (map dim o) ->
    exists a, map a o = ix /\ forall l, In l o -> a l < dim l.
  Proof.
    intros No Hv. exists (fun l => nth (index_of label_dec l o) ix 0).
    pose proof (valid_length Hv) as L. rewrite map_length in L. split.
    - apply (nth_ext _ _ 0 0).
      + rewrite map_length. auto.
      + intros k Hk. rewrite map_length in Hk.
        rewrite (nth_indep _ 0 (nth (index_of label_dec (LInt 0) o) ix 0)) by (rewrite map_length; exact Hk).
        rewrite (map_nth (fun l => nth (index_of label_dec l o) ix 0)). rewrite index_of_nth by assumption. reflexivity.
    - intros l Hl. pose proof (@index_of_lt _ label_dec _ _ Hl) as Hi.
      pose proof (@valid_nth ix (map dim o) (index_of label_dec l o) Hv) as V. rewrite map_length in V. specialize (V Hi).
      rewrite (nth_indep (map dim o) 0 (dim (LInt 0))) in V by (rewrite map_length; exact Hi). rewrite map_nth, nth_index_of in V by exact Hl. exact V.
  Qed.
  Lemma closed_exists ns : exists cl, lists_closed ns cl.
  Proof. exists (get_cont_labels (List.concat ns)). split; [apply NoDup_cont | apply In_cont]. Qed.

  (** renaming *)
  Section Renaming.
    Variable f : label -> label.
    Variable ns : list (list label).
    Let flat := List.concat ns.
    Hypothesis finj : forall x y, In x flat -> In y flat -> f x = f y -> x = y.
    Hypothesis fopen : forall x, In x flat -> (Open (f x) <-> Open x).
    Definition renamed := map (map f) ns.

    Definition unf (y : label) : label :=
      match find (fun x => if label_dec (f x) y then true else false) flat with Some x => x | None => y end.
    Lemma unf_f x : In x flat -> unf (f x) = x.
    Proof.
      intros H. unfold unf. destruct (find _ flat) as [x'|] eqn:E.
      - apply find_some in E. destruct E as [Hx E]. destruct (label_dec (f x') (f x)); [auto | discriminate].
      - apply (find_none _ _ E) in H. destruct (label_dec (f x) (f x)); congruence.
    Qed.
    Lemma renamed_flat : List.concat renamed = map f flat.
    Proof. apply concat_map_map. Qed.
    Lemma renamed_sized dim ts : sized dim ts ns -> sized (fun y => dim (unf y)) ts renamed.
    Proof.
      intros [H1 H2]. unfold renamed. split; [rewrite map_length; exact H1|].
      intros x Hx. unfold network in Hx. rewrite combine_map_r in Hx. apply in_map_iff in Hx. destruct Hx as (y & <- & Hy).
      unfold fits. cbn [fst snd]. rewrite (H2 _ Hy), map_map. apply map_ext_in. intros l Hl. rewrite unf_f; [reflexivity|].
      apply in_concat. exists (snd y). split; [|exact Hl]. destruct y. eapply in_combine_r, Hy.
    Qed.
    Lemma renamed_count ls x : incl ls flat -> In x flat -> count_occ label_dec (map f ls) (f x) = count_occ label_dec ls x.
    Proof. intros Hi Hx. apply count_map_inj. intros y Hy. apply finj; auto. Qed.
    Lemma incl_flat ls : In ls ns -> incl ls flat.
    Proof. intros H x Hx. apply in_concat. eauto. Qed.
    Lemma renamed_ordinary : ordinary ns -> ordinary renamed.
    Proof.
      intros H ls l Hls Hl. unfold renamed in Hls. apply in_map_iff in Hls. destruct Hls as (ms & <- & Hms).
      apply in_map_iff in Hl. destruct Hl as (x & <- & Hx). pose proof (incl_flat Hms) as Hi.
      rewrite renamed_flat, !renamed_count by (auto; apply incl_refl).
      rewrite fopen by auto. apply H; assumption.
    Qed.
    Lemma renamed_lists (P : label -> Prop) ls : (forall x, In x flat -> (P (f x) <-> P x)) ->
      lists_labels P ns ls -> lists_labels P renamed (map f ls).
    Proof.
      intros HP [N H]. fold flat in H. split.
      - apply NoDup_map_in; [|exact N]. intros a b Ha Hb. apply finj; [apply H, Ha | apply H, Hb].
      - intros l. rewrite renamed_flat, !in_map_iff. split.
        + intros (x & <- & Hx). apply H in Hx. split; [exists x; tauto|]. apply HP; tauto.
        + intros ((x & <- & Hx) & Hp). exists x. split; [reflexivity|]. apply H. split; [exact Hx|]. apply HP; assumption.
    Qed.

    Theorem ncon_rename dim check check' iter' ts con con' out out' o t t' :
      (forall l, Permutation (iter' l) l) ->
      sized dim ts ns -> ordinary ns ->
      con_spec ns con -> con_spec renamed con' -> out_spec ns out o -> out_spec renamed out' (map f o) ->
      ncon iter check ts ns con out = Ok t -> ncon iter' check' ts renamed con' out' = Ok t' -> teq t t'.
    Proof.
      intros Hit Hs Ho Hc Hc' Hp Hp' E E'.
      destruct (ncon_value Hs Ho Hc Hp E) as [S V].
      pose proof (ncon_correct Hit check' (renamed_sized Hs) (renamed_ordinary Ho) Hc' Hp') as N.
      rewrite E' in N. destruct N as [S' V'].
      destruct Hp as [[No Io] _]. fold flat in Io.
      assert (map (fun y => dim (unf y)) (map f o) = map dim o) as Es.
      { rewrite map_map. apply map_ext_in. intros l Hl. rewrite unf_f; [reflexivity | apply Io, Hl]. }
      split; [congruence|]. intros ix Hix. rewrite S in Hix.
      destruct (assign_exists No Hix) as (a & Ea & Ra).
      destruct (closed_exists ns) as (cl & Hcl).
      rewrite <- Ea. rewrite (V cl a Hcl Ra).
      assert (map a o = map (fun y => a (unf y)) (map f o)) as ->.
      { rewrite map_map. apply map_ext_in. intros l Hl. rewrite unf_f; [reflexivity | apply Io, Hl]. }
      rewrite (V' (map f cl) (fun y => a (unf y))).
      - symmetry. unfold network, renamed. rewrite combine_map_r.
        apply (@einsum_rename R _ _ label_dec label_dec f (fun l => In l flat)).
        + exact finj.
        + intros x Hx. apply Hcl, Hx.
        + destruct Hs. fold (network ts ns). rewrite net_labels_network by assumption. auto.
        + intros x Hx. rewrite unf_f; auto.
        + intros x Hx. rewrite unf_f; auto.
      - apply renamed_lists; [|exact Hcl]. intros x Hx. rewrite fopen by exact Hx. reflexivity.
      - intros l Hl. apply in_map_iff in Hl. destruct Hl as (x & <- & Hx). rewrite unf_f by (apply Io, Hx). apply Ra, Hx.
    Qed.

    (** an order-preserving renaming of the open labels respects the default order *)
    Lemma renamed_out_default o :
      (forall x y, In x flat -> In y flat -> Open x -> Open y -> out_before x y -> out_before (f x) (f y)) ->
      out_spec ns None o -> out_spec renamed None (map f o).
    Proof.
      intros Hm [H1 H2]. split; [apply renamed_lists; assumption|].
      apply StronglySorted_map. eapply StronglySorted_impl; [|exact H2]. cbn beta. intros x y Hx Hy. apply H1 in Hx, Hy.
      apply Hm; tauto.
    Qed.
    Lemma renamed_out_some o : lists_open ns o -> out_spec renamed (Some (map f o)) (map f o).
    Proof.
      intros H. split; [apply renamed_lists; assumption|].
      destruct o; [constructor | reflexivity].
    Qed.
  End Renaming.

  (** con_order *)
  Theorem ncon_con_order dim check check' iter' ts ns con con' out o t t' :
    (forall l, Permutation (iter' l) l) ->
    sized dim ts ns -> ordinary ns -> con_spec ns con -> con_spec ns con' -> out_spec ns out o ->
    ncon iter check ts ns con out = Ok t -> ncon iter' check' ts ns con' out = Ok t' -> teq t t'.
  Proof.
    intros Hit Hs Ho Hc Hc' Hp E E'. pose proof (ncon_value Hs Ho Hc Hp E) as [S V].
    pose proof (ncon_correct Hit check' Hs Ho Hc' Hp) as N. rewrite E' in N. destruct N as [S' V'].
    split; [congruence|]. intros ix Hix. rewrite S in Hix. destruct Hp as [[No Io] _].
    destruct (assign_exists No Hix) as (a & <- & Ra). destruct (closed_exists ns) as (cl & Hcl).
    rewrite (V cl a Hcl Ra), (V' cl a Hcl Ra). reflexivity.
  Qed.
  (** out_order *)
  Theorem ncon_out_order dim check ts ns con out out' o o' t t' :
    sized dim ts ns -> ordinary ns -> con_spec ns con -> out_spec ns out o -> out_spec ns out' o' ->
    ncon iter check ts ns con out = Ok t -> ncon iter check ts ns con out' = Ok t' ->
    Permutation o o' /\ shape t = map dim o /\ shape t' = map dim o' /\
    forall a, (forall l, In l o -> a l < dim l) -> elt t (map a o) = elt t' (map a o').
  Proof.
    intros Hs Ho Hc Hp Hp' E E'. pose proof (ncon_value Hs Ho Hc Hp E) as [S V]. pose proof (ncon_value Hs Ho Hc Hp' E') as [S' V'].
    destruct Hp as [[No Io] _], Hp' as [[No' Io'] _].
    assert (forall l, In l o <-> In l o') as I by (intros l; rewrite Io, Io'; reflexivity).
    split; [apply NoDup_Permutation; auto|]. split; [exact S|]. split; [exact S'|].
    intros a Ra. destruct (closed_exists ns) as (cl & Hcl).
    rewrite (V cl a Hcl Ra), (V' cl a Hcl); [reflexivity|]. intros l Hl. apply Ra, I, Hl.
  Qed.
End Main.

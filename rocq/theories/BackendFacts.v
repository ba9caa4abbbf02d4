From Coq Require Import ZArith.
From Verif Require Import Prelude Res Algebra Tensor TensorFacts ListFacts Backends BackendSpec.
Set Implicit Arguments.
Unset Strict Implicit.

Lemma list_eqb_spec a b : list_eqb a b = true <-> a = b.
Proof. unfold list_eqb. destruct (list_eq_dec Nat.eq_dec a b); split; congruence. Qed.
Lemma same_spec a b : same a b = true <-> a = b.
Proof. unfold same. destruct (list_eq_dec Nat.eq_dec a b); split; congruence. Qed.

Section Facts.
  Context {R : csr}.
  Add Ring Rring : (rsr R).

  (** ** [tensordot] is the contraction *)
  Lemma map_fst_combine A B (l : list A) : forall (m : list B), length l = length m -> map fst (combine l m) = l.
  Proof. induction l; destruct m; cbn; intros; try discriminate; f_equal; auto. Qed.
  Lemma map_snd_combine A B (l : list A) : forall (m : list B), length l = length m -> map snd (combine l m) = m.
  Proof. induction l; destruct m; cbn; intros; try discriminate; f_equal; auto. Qed.

  Lemma agree_gather ia ib (pairs : list (nat * nat)) :
    agree ia ib pairs = true <-> gather 0 ia (map fst pairs) = gather 0 ib (map snd pairs).
  Proof.
    unfold agree, gather. induction pairs as [|[i j] r IH]; cbn [forallb map fst snd]; [tauto|].
    rewrite andb_true_iff, IH, Nat.eqb_eq. split; [intros [-> ->]; reflexivity | intros E; injection E; auto].
  Qed.

  Lemma contractible_dims (a b : tensor R) pairs :
    contractible a b pairs -> gather 0 (shape a) (map fst pairs) = gather 0 (shape b) (map snd pairs).
  Proof.
    intros (_ & _ & H). unfold gather. rewrite !map_map. apply map_ext_in. intros [i j] Hi. apply H in Hi. cbn. tauto.
  Qed.

  (** a sum over all indices of [t], organised by the indices along [f ++ x] *)
  Lemma lsum_split (s f x : list nat) (g : list nat -> R) :
    is_perm (length s) (f ++ x) ->
    lsum (idxs s) g =
    lsum (idxs (gather 0 s f)) (fun u => lsum (idxs (gather 0 s x)) (fun v => g (unperm 0 (f ++ x) (u ++ v)))).
  Proof.
    intros Hp.
    rewrite <- (lsum_idxs_app (gather 0 s f) (gather 0 s x) (fun w => g (unperm 0 (f ++ x) w))), <- gather_app.
    rewrite lsum_idxs_gather by exact Hp. apply lsum_ext. intros ix Hix.
    apply In_idxs in Hix. rewrite unperm_gather; [reflexivity|].
    rewrite (valid_length Hix). exact Hp.
  Qed.

  Lemma gather_unperm_app (f x u v : list nat) n :
    is_perm n (f ++ x) -> length u = length f -> length v = length x ->
    gather 0 (unperm 0 (f ++ x) (u ++ v)) f = u /\ gather 0 (unperm 0 (f ++ x) (u ++ v)) x = v.
  Proof.
    intros Hp Hu Hv.
    assert (is_perm (length (u ++ v)) (f ++ x)) as Hp'.
    { rewrite app_length, Hu, Hv, <- app_length, (is_perm_length Hp). exact Hp. }
    assert (forall (a b c d : list nat), a ++ b = c ++ d -> length a = length c -> a = c /\ b = d) as inj.
    { induction a; destruct c; cbn; intros; try discriminate; auto.
      injection H; injection H0; intros. destruct (IHa _ _ _ H2 H1). subst. auto. }
    pose proof (@gather_unperm _ 0 0 _ _ Hp') as E'. rewrite gather_app in E'.
    apply inj in E'; [exact E'|]. rewrite gather_length. congruence.
  Qed.

  Lemma tensordot_contraction (a b : tensor R) pairs :
    contractible a b pairs ->
    teq (tensordot a b (map fst pairs) (map snd pairs)) (contraction a b pairs).
  Proof.
    intros Hc. pose proof (contractible_dims Hc) as Hd. destruct Hc as (Na & Nb & Hr).
    set (ax := map fst pairs) in *. set (bx := map snd pairs) in *.
    assert (forall i, In i ax -> i < rank a) as Ra.
    { intros i Hi. apply in_map_iff in Hi as [[i' j] [<- Hi]]. apply Hr in Hi. tauto. }
    assert (forall i, In i bx -> i < rank b) as Rb.
    { intros i Hi. apply in_map_iff in Hi as [[i' j] [<- Hi]]. apply Hr in Hi. tauto. }
    pose proof (free_axes_perm Na Ra) as Pa. pose proof (free_axes_perm Nb Rb) as Pb.
    split; [reflexivity|]. intros ix Hix. cbn [shape tensordot] in Hix.
    unfold tensordot, contraction. cbn [elt]. fold ax bx.
    set (fa := free_axes (rank a) ax) in *. set (fb := free_axes (rank b) bx) in *.
    assert (length (gather 0 (shape a) fa) = length fa) as Lfa by apply gather_length.
    destruct (@valid_app_inv _ _ _ Hix) as [Via Vib]. rewrite Lfa in Via, Vib.
    set (ia := firstn (length fa) ix) in *. set (ib := skipn (length fa) ix) in *.
    assert (ix = ia ++ ib) as Eix by (symmetry; apply firstn_skipn).
    symmetry. rewrite (@lsum_split (shape a) fa ax) by exact Pa.
    (* u = ia *)
    rewrite (@lsum_single _ _ _ _ ia); [|apply NoDup_idxs | apply In_idxs; exact Via |].
    2:{ intros u Hu Hne. apply In_idxs in Hu. apply lsum_zero. intros v Hv. apply In_idxs in Hv.
        apply lsum_zero. intros jb Hjb. apply In_idxs in Hjb.
        destruct (@gather_unperm_app fa ax u v _ Pa) as [E1 E2];
          [rewrite (valid_length Hu); apply gather_length | rewrite (valid_length Hv); apply gather_length|].
        rewrite E1. destruct (same (u ++ gather 0 jb fb) ix) eqn:Es; [|reflexivity].
        apply same_spec in Es. exfalso. apply Hne. rewrite <- (firstn_skipn (length fa) ix) in Es.
        fold ia ib in Es. apply (f_equal (firstn (length fa))) in Es.
        rewrite !firstn_app in Es.
        replace (length fa - length u) with 0 in Es by (rewrite (valid_length Hu), Lfa; lia).
        replace (length fa - length ia) with 0 in Es by (rewrite (valid_length Via), Lfa; lia).
        cbn [firstn] in Es. rewrite !app_nil_r in Es. rewrite !firstn_all2 in Es; [exact Es| |].
        - rewrite (valid_length Via), Lfa. lia.
        - rewrite (valid_length Hu), Lfa. lia. }
    apply lsum_ext. intros v Hv. apply In_idxs in Hv.
    destruct (@gather_unperm_app fa ax ia v _ Pa) as [E1 E2];
      [rewrite (valid_length Via); apply gather_length | rewrite (valid_length Hv); apply gather_length|].
    rewrite E1. rewrite (@lsum_split (shape b) fb bx) by exact Pb.
    rewrite (@lsum_single _ _ _ _ ib); [|apply NoDup_idxs | apply In_idxs; exact Vib |].
    2:{ intros u Hu Hne. apply In_idxs in Hu. apply lsum_zero. intros w Hw. apply In_idxs in Hw.
        destruct (@gather_unperm_app fb bx u w _ Pb) as [F1 F2];
          [rewrite (valid_length Hu); apply gather_length | rewrite (valid_length Hw); apply gather_length|].
        rewrite F1. destruct (same (ia ++ u) ix) eqn:Es; [|reflexivity].
        apply same_spec in Es. exfalso. apply Hne. rewrite Eix in Es. apply app_inv_head in Es. exact Es. }
    rewrite (@lsum_single _ _ _ _ v); [|apply NoDup_idxs | apply In_idxs; rewrite <- Hd; exact Hv |].
    2:{ intros w Hw Hne. apply In_idxs in Hw.
        destruct (@gather_unperm_app fb bx ib w _ Pb) as [F1 F2];
          [rewrite (valid_length Vib); apply gather_length | rewrite (valid_length Hw); apply gather_length|].
        destruct (agree _ _ pairs) eqn:Eg; [|rewrite andb_false_r; reflexivity].
        apply agree_gather in Eg. fold ax bx in Eg. rewrite E2, F2 in Eg. congruence. }
    destruct (@gather_unperm_app fb bx ib v _ Pb) as [F1 F2];
      [rewrite (valid_length Vib); apply gather_length | rewrite (valid_length Hv), Hd; apply gather_length|].
    rewrite F1, <- Eix. replace (same ix ix) with true by (symmetry; apply same_spec; reflexivity).
    replace (agree _ _ pairs) with true; [reflexivity|].
    symmetry. apply agree_gather. fold ax bx. rewrite E2, F2. reflexivity.
  Qed.

  (** the order of the pairs does not matter *)
  Lemma mem_perm i l l' : Permutation l l' -> mem i l = mem i l'.
  Proof.
    intros P. destruct (mem i l') eqn:E.
    - apply mem_In. apply mem_In in E. eapply Permutation_in; [apply Permutation_sym|]; eassumption.
    - apply mem_nIn. apply mem_nIn in E. intros H. apply E. eapply Permutation_in; eassumption.
  Qed.
  Lemma free_axes_permutation n l l' : Permutation l l' -> free_axes n l = free_axes n l'.
  Proof. intros P. unfold free_axes. apply filter_ext. intros i. f_equal. apply mem_perm. exact P. Qed.
  Lemma forallb_perm A (f : A -> bool) l l' : Permutation l l' -> forallb f l = forallb f l'.
  Proof.
    induction 1; cbn; try congruence. destruct (f x), (f y); reflexivity.
  Qed.
  Lemma contraction_perm (a b : tensor R) p p' : Permutation p p' -> teq (contraction a b p) (contraction a b p').
  Proof.
    intros P. unfold contraction.
    rewrite (free_axes_permutation (rank a) (Permutation_map fst P)).
    rewrite (free_axes_permutation (rank b) (Permutation_map snd P)).
    split; [reflexivity|]. intros ix _. cbn [elt]. apply lsum_ext. intros ia _. apply lsum_ext. intros ib _.
    unfold agree. rewrite (forallb_perm _ P). reflexivity.
  Qed.
  Lemma contractible_perm (a b : tensor R) p p' : Permutation p p' -> contractible a b p -> contractible a b p'.
  Proof.
    intros P (H1 & H2 & H3). repeat split.
    - eapply Permutation_NoDup; [apply Permutation_map; exact P | exact H1].
    - eapply Permutation_NoDup; [apply Permutation_map; exact P | exact H2].
    - apply (H3 i j). eapply Permutation_in; [apply Permutation_sym; exact P | assumption].
    - apply (H3 i j). eapply Permutation_in; [apply Permutation_sym; exact P | assumption].
    - apply (H3 i j). eapply Permutation_in; [apply Permutation_sym; exact P | assumption].
  Qed.

  (** ** matricisation *)
  Lemma unravel_app s1 s2 : forall i k, i < nprod s1 -> k < nprod s2 ->
    unravel (s1 ++ s2) (i * nprod s2 + k) = unravel s1 i ++ unravel s2 k.
  Proof.
    intros i k Hi Hk.
    apply (@ravel_inj (s1 ++ s2)).
    - apply unravel_valid. rewrite nprod_app. nia.
    - apply valid_app; apply unravel_valid; assumption.
    - rewrite ravel_unravel by (rewrite nprod_app; nia).
      assert (forall s u s' v, valid u s -> ravel (s ++ s') (u ++ v) = ravel s u * nprod s' + ravel s' v) as E.
      { clear. induction s as [|d r IH]; intros u s' v Hu; inversion Hu; subst; [reflexivity|].
        cbn [app ravel]. rewrite IH by assumption. rewrite nprod_app. lia. }
      rewrite E by (apply unravel_valid; exact Hi). rewrite !ravel_unravel by assumption. reflexivity.
  Qed.
  Lemma ravel_app : forall s u s' v, valid u s -> ravel (s ++ s') (u ++ v) = ravel s u * nprod s' + ravel s' v.
  Proof.
    induction s as [|d r IH]; intros u s' v Hu; inversion Hu; subst; [reflexivity|].
    cbn [app ravel]. rewrite IH by assumption. rewrite nprod_app. lia.
  Qed.
  Lemma ravel2 m n i k : ravel [m; n] [i; k] = i * n + k.
  Proof. cbn. lia. Qed.

  Lemma transpose_if_spec (t : tensor R) p :
    is_perm (rank t) p -> exists t', transpose_if_necessary t p = Ok t' /\ teq t' (transpose t p).
  Proof.
    intros Hp. unfold transpose_if_necessary.
    destruct (list_eqb p (seq 0 (length p))) eqn:E.
    - exists t. split; [reflexivity|]. apply list_eqb_spec in E.
      rewrite (is_perm_length Hp) in E. rewrite E. apply teq_sym, transpose_id.
    - replace (is_permb (rank t) p) with true by (symmetry; apply is_permb_spec; exact Hp).
      exists (transpose t p). split; [reflexivity | apply teq_refl].
  Qed.
  Lemma reshape_if_spec (t : tensor R) s :
    nprod s = nprod (shape t) -> exists t', reshape_if_necessary t s = Ok t' /\ teq t' (reshape t s).
  Proof.
    intros Hs. unfold reshape_if_necessary.
    destruct (list_eqb s (shape t)) eqn:E.
    - exists t. split; [reflexivity|]. apply list_eqb_spec in E. subst s. apply teq_sym, reshape_id.
    - rewrite Hs, Nat.eqb_refl. exists (reshape t s). split; [reflexivity | apply teq_refl].
  Qed.

  Lemma nprod_pair a b : nprod [a; b] = a * b.
  Proof. cbn. lia. Qed.

  (** entries of the matrix made from [t] by grouping the axes [p1] and [p2] *)
  Lemma matricise (t : tensor R) p1 p2 :
    is_perm (rank t) (p1 ++ p2) ->
    exists m t', transpose_if_necessary t (p1 ++ p2) = Ok t' /\
      reshape_if_necessary t' [nprod (gather 0 (shape t) p1); nprod (gather 0 (shape t) p2)] = Ok m /\
      shape m = [nprod (gather 0 (shape t) p1); nprod (gather 0 (shape t) p2)] /\
      forall i k, i < nprod (gather 0 (shape t) p1) -> k < nprod (gather 0 (shape t) p2) ->
        elt m [i; k] = elt t (unperm 0 (p1 ++ p2)
           (unravel (gather 0 (shape t) p1) i ++ unravel (gather 0 (shape t) p2) k)).
  Proof.
    intros Hp. set (s1 := gather 0 (shape t) p1). set (s2 := gather 0 (shape t) p2).
    destruct (transpose_if_spec Hp) as (t' & E1 & Q1).
    assert (shape t' = s1 ++ s2) as Es by (rewrite (proj1 Q1); apply gather_app).
    destruct (@reshape_if_spec t' [nprod s1; nprod s2]) as (m & E2 & Q2).
    { rewrite Es, nprod_app, nprod_pair. reflexivity. }
    exists m, t'. split; [exact E1|]. split; [exact E2|]. split; [apply Q2|].
    intros i k Hi Hk. destruct Q2 as [Sm Q2].
    rewrite Q2.
    2:{ rewrite Sm. repeat constructor; assumption. }
    cbn [elt reshape]. rewrite ravel2, Es, unravel_app by assumption.
    destruct Q1 as [_ Q1]. rewrite Q1; [reflexivity|].
    rewrite Es. apply valid_app; apply unravel_valid; assumption.
  Qed.

  Lemma unperm_swap (p1 p2 u v : list nat) :
    NoDup (p1 ++ p2) -> length u = length p1 -> length v = length p2 ->
    unperm 0 (p2 ++ p1) (v ++ u) = unperm 0 (p1 ++ p2) (u ++ v).
  Proof.
    intros HN Hu Hv. unfold unperm. rewrite !app_length, (Nat.add_comm (length p2)).
    apply map_ext_in. intros i Hi. apply NoDup_app_iff in HN as (_ & _ & Hd).
    destruct (in_dec Nat.eq_dec i p1) as [H1|H1]; destruct (in_dec Nat.eq_dec i p2) as [H2|H2].
    - exfalso. exact (Hd i H1 H2).
    - rewrite index_of_app_r by exact H2. rewrite index_of_app_l by exact H1.
      rewrite app_nth2 by lia. rewrite app_nth1.
      + f_equal. lia.
      + rewrite Hu. apply index_of_lt. exact H1.
    - rewrite index_of_app_l by exact H2. rewrite index_of_app_r by exact H1.
      rewrite app_nth1 by (rewrite Hv; apply index_of_lt; exact H2).
      rewrite app_nth2 by lia. f_equal. lia.
    - rewrite !index_of_app_r by assumption. rewrite !index_of_notin by assumption.
      rewrite !nth_overflow; [reflexivity| |]; rewrite app_length; lia.
  Qed.

  Lemma norm_axes_ok n axes ax : norm_axes n axes = Ok ax -> forall i, In i ax -> i < n.
  Proof.
    unfold norm_axes. destruct (forallb _ axes) eqn:E; [|discriminate]. intros H i Hi.
    injection H as <-. apply in_map_iff in Hi as [z [<- Hz]].
    rewrite forallb_forall in E. apply E in Hz. apply andb_true_iff in Hz as [H1 H2].
    apply Z.leb_le in H1. apply Z.ltb_lt in H2. lia.
  Qed.

  (** [tensordot_reshape]: an [(free, axes)] matrix of [t], possibly transposed *)
  Lemma tensordot_reshape_spec (t : tensor R) axes right ax :
    norm_axes (rank t) axes = Ok ax -> NoDup ax ->
    let f := free_axes (rank t) ax in
    let sf := gather 0 (shape t) f in
    let sx := gather 0 (shape t) ax in
    exists m fl,
      tensordot_reshape t axes right = Ok (m, sf, if right then negb fl else fl) /\
      shape m = (if fl then [nprod sx; nprod sf] else [nprod sf; nprod sx]) /\
      forall i k, i < nprod sf -> k < nprod sx ->
        elt m (if fl then [k; i] else [i; k]) = elt t (unperm 0 (f ++ ax) (unravel sf i ++ unravel sx k)).
  Proof.
    intros Hn HN f sf sx. pose proof (norm_axes_ok Hn) as Hr.
    unfold tensordot_reshape. rewrite Hn. cbn [rbind]. fold f. fold sf. fold sx.
    set (fl := should_flip ax f). pose proof (free_axes_perm HN Hr) as P1. pose proof (free_axes_perm' HN Hr) as P2.
    fold f in P1, P2.
    destruct fl eqn:Efl.
    - destruct (matricise P2) as (m & t' & E1 & E2 & Sm & Em). fold sf sx in E2, Sm, Em.
      exists m, true. rewrite E1. cbn [rbind]. rewrite E2. cbn [rbind]. repeat split; [exact Sm|].
      intros i k Hi Hk. rewrite Em by assumption. f_equal. apply unperm_swap.
      + apply is_perm_NoDup in P1. exact P1.
      + rewrite (valid_length (@unravel_valid _ _ Hi)). apply gather_length.
      + rewrite (valid_length (@unravel_valid _ _ Hk)). apply gather_length.
    - destruct (matricise P1) as (m & t' & E1 & E2 & Sm & Em). fold sf sx in E2, Sm, Em.
      exists m, false. rewrite E1. cbn [rbind]. rewrite E2. cbn [rbind]. repeat split; [exact Sm|]. exact Em.
  Qed.

  Lemma valid_pair i k m n : i < m -> k < n -> valid [i; k] [m; n].
  Proof. repeat constructor; assumption. Qed.

  (** the matrix product followed by the final reshape *)
  Lemma finish (a b : tensor R) za zb ax bx :
    norm_axes (rank a) za = Ok ax -> norm_axes (rank b) zb = Ok bx ->
    contractible a b (combine ax bx) -> length ax = length bx ->
    exists c,
      rbind (tensordot_reshape a za false) (fun ra =>
      rbind (tensordot_reshape b zb true) (fun rb =>
        let '(am, af, at_) := ra in
        let '(bm, bf, bt) := rb in
        rbind (tmatmul am bm at_ bt) (fun ab =>
          if nprod (af ++ bf) =? nprod (shape ab) then Ok (reshape ab (af ++ bf)) else Raise))) = Ok c /\
      teq c (tensordot a b ax bx).
  Proof.
    intros Ha Hb Hc Hl. pose proof (contractible_dims Hc) as Hd. destruct Hc as (Na & Nb & _).
    rewrite map_fst_combine in Hd, Na by exact Hl. rewrite map_snd_combine in Hd, Nb by exact Hl.
    destruct (@tensordot_reshape_spec a za false ax Ha Na) as (ma & fa & Ea & Sa & Va).
    destruct (@tensordot_reshape_spec b zb true bx Hb Nb) as (mb & fb & Eb & Sb & Vb).
    rewrite Ea, Eb. cbn [rbind].
    set (f := free_axes (rank a) ax) in *. set (g := free_axes (rank b) bx) in *.
    set (sa := gather 0 (shape a) f) in *. set (sb := gather 0 (shape b) g) in *.
    set (sx := gather 0 (shape a) ax) in *. rewrite <- Hd in Sb, Vb.
    assert (tmatmul ma mb fa (negb fb) = Ok (Tensor [nprod sa; nprod sb] (fun ix =>
            nsum (nprod sx) (fun l =>
              elt ma (if fa then [l; nth 0 ix 0] else [nth 0 ix 0; l]) *!
              elt mb (if negb fb then [nth 1 ix 0; l] else [l; nth 1 ix 0]))))) as Em.
    { unfold tmatmul. rewrite Sa, Sb. destruct fa, fb; cbn [negb]; rewrite Nat.eqb_refl; reflexivity. }
    rewrite Em. cbn [rbind shape]. rewrite nprod_app, nprod_pair, Nat.eqb_refl.
    eexists. split; [reflexivity|]. split; [reflexivity|].
    intros ix Hix. cbn [shape reshape] in Hix. destruct (@valid_app_inv _ _ _ Hix) as [Hi Hj].
    assert (length sa = length f) as Lsa by apply gather_length. rewrite Lsa in Hi, Hj.
    unfold reshape, tensordot. cbn [elt shape]. fold f g sx.
    set (u := firstn (length f) ix) in *. set (v := skipn (length f) ix) in *.
    assert (ravel (sa ++ sb) ix = ravel sa u * nprod sb + ravel sb v) as Er.
    { rewrite <- (firstn_skipn (length f) ix). apply ravel_app. exact Hi. }
    pose proof (ravel_lt Hi) as Lu. pose proof (ravel_lt Hj) as Lv.
    rewrite Er. rewrite <- (ravel2 (nprod sa)), unravel_ravel by (apply valid_pair; assumption).
    cbn [nth]. rewrite <- (nsum_unravel sx). apply nsum_ext. intros l Hl'.
    assert (elt ma (if fa then [l; ravel sa u] else [ravel sa u; l]) = elt a (unperm 0 (f ++ ax) (u ++ unravel sx l))) as E1.
    { rewrite Va by assumption. rewrite unravel_ravel by exact Hi. reflexivity. }
    assert (elt mb (if negb fb then [ravel sb v; l] else [l; ravel sb v]) = elt b (unperm 0 (g ++ bx) (v ++ unravel sx l))) as E2.
    { specialize (Vb (ravel sb v) l Lv Hl'). rewrite unravel_ravel in Vb by exact Hj. rewrite <- Vb.
      destruct fb; reflexivity. }
    rewrite E1, E2. reflexivity.
  Qed.
End Facts.

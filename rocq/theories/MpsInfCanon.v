(** * MpsInfCanon: what [canonicalize] of an infinite state returns *)
From Coq Require Import List ZArith Lia Permutation.
From Verif Require Import Prelude Res Algebra Tensor TensorFacts ListFacts BlockSparse Backends DecompFacts
  Mps MpsSpec MpsNcon MpsSplit MpsState MpsPosition MpsCanon MpsMeasureSpec MpsDouble MpsNorm
  MpsInf MpsInfSpec MpsInfNcon MpsInfAlg MpsInfFacts MpsInfRoots MpsInfCell.
Import ListNotations.
Set Implicit Arguments.
Unset Strict Implicit.
Local Open Scope nat_scope.
Local Open Scope csr_scope.

Section Canon.
  Context {R : cjr} {E : Type}.
  Add Ring Rring : (rsr R).
  Notation tensor := (Tensor.tensor R).
  Variable iter : list Z -> list Z.
  Hypothesis iter_perm : forall l, Permutation (iter l) l.
  Variable qrf : tensor -> res (tensor * tensor).
  Variable svdf : tensor -> res (tensor * list R * tensor).
  Variable nkeep : bool -> option nat -> option E -> list R -> nat.
  Variable err_ge1 : E -> bool.
  Variable nrm : tensor -> R.
  Variable rdiv : R -> R -> R.
  Variable eigs : (tensor -> res tensor) -> tensor -> res (R * tensor).
  Variable rnd : nat -> tensor.
  Variable eigh : tensor -> res (list R * tensor).
  Variable inv : tensor -> res tensor.
  Variable sqrtf absf : R -> R.
  Variable le : R -> R -> bool.
  Variable isz : R -> bool.
  Variable cutoff : R.
  Hypothesis Hqr : qr_ok qrf.
  Hypothesis Hsvd : svd_ok svdf.
  Hypothesis Hdiv : div_ok rdiv.
  Hypothesis H2 : r1 +! r1 <> r0 :> R.
  Hypothesis Hn : norm_sq nrm.
  Hypothesis Heigs : eigs_ok eigs.
  Hypothesis Hrnd : forall n, shape (rnd n) = [n].
  Hypothesis Heigh : eigh_ok eigh.
  Hypothesis Hinv : inv_ok inv.
  Hypothesis Hsqrt : sqrt_ok rdiv sqrtf le cutoff.
  Notation pos m site := (position iter qrf svdf nkeep err_ge1 nrm rdiv true None None m site).
  Notation cancel := (@cancel R rdiv Hdiv).
  Notation mul_nz := (@mul_nz R rdiv Hdiv).

  Lemma lprod_in0 (zs : list R) : In r0 zs -> lprod zs (fun y => y) = r0.
  Proof.
    induction zs as [|z zs IH]; intros H; [destruct H|]. rewrite lprod_cons. destruct H as [->|H]; [ring | rewrite (IH H); ring].
  Qed.
  Lemma last_in A (l : list A) d : l <> [] -> In (last l d) l.
  Proof. induction l as [|x l IH]; [congruence|]. intros _. destruct l; [left; reflexivity | right; apply IH; discriminate]. Qed.
  Lemma cj_nz (x : R) : x <> r0 -> cj x <> r0.
  Proof. intros H Q. apply H. rewrite <- (@cj_inv R x), Q. apply cj_0. Qed.

  Lemma pos_norm l r (ts : list tensor) c site m' z : chain l ts r -> nonzero l r ts -> pos (MPS ts (Some c)) site = Ok (m', z) ->
    exists s, site = Z.of_nat s /\ s < length ts /\ centre m' = Some s /\ chain l (tens m') r /\ phys (tens m') = phys ts /\
      (c = 0 -> s + 1 = length ts -> canonical (tens m') s) /\
      exists kap, kap <> r0 /\ scaled l r kap ts (tens m') /\ (canonical (tens m') s -> state_norm2 l r (tens m') = r1).
  Proof.
    intros C N H. destruct (position_spec (m := MPS ts (Some c)) (c := c) iter_perm Hqr Hsvd C eq_refl H) as (s & H1 & H3 & H4 & H5 & H6 & H7 & H8 & (zs & Z1 & Z2 & Z3) & (w & W1 & W2)).
    cbn [tens centre] in *. exists s. do 5 (split; [assumption|]).
    assert (scaled l r (lprod zs (factor true)) ts (tens m')) as Sc.
    { apply Z3. split; [left; auto|]. intros _. split; [exact N|]. split; [exact (proj1 Hn) | exact Hdiv]. }
    assert (lprod zs (factor true) <> r0) as K0 by (intros Q; rewrite Q in Sc; exact (scaled_zero Sc N)).
    split; [|exists (lprod zs (factor true)); split; [exact K0|]; split; [exact Sc|]].
    - intros -> Ls. apply canonical_split. split.
      + apply H7. intros i t _ Hi. lia.
      + intros i t Hi Li. assert (i < length (tens m')) as Lm by (apply nth_error_Some; congruence).
        rewrite <- phys_length, H6, phys_length in Lm. lia.
    - intros K. rewrite (norm_centre H5 K W1). unfold out. rewrite W2. apply norm_tdiv; [| exact Hdiv |].
      + intros t. rewrite (proj1 (proj2 Hn t)). exact (proj2 (proj2 Hn t)).
      + intros Q. apply K0. rewrite <- W2 in Q. change (lprod zs (fun y : R => y) = r0). apply lprod_in0. rewrite <- Q, <- Z2. apply last_in.
        intros ->. cbn [length] in Z1. lia.
  Qed.

  Lemma right_eigen_scaled D k (x y : list tensor) e z : scaled D D k x y -> right_eigen D y e z -> right_eigen D x (k *! cj k *! e) z.
  Proof.
    intros [Ph Sc] H i j Hi Hj. transitivity (k *! cj k *! (e *! z i j)); [|ring]. rewrite <- (H i j Hi Hj), <- nsum_mul_l. rewrite Ph.
    apply nsum_ext. intros a Ha. rewrite <- nsum_mul_l. apply nsum_ext. intros b Hb.
    transitivity (z a b *! (k *! cj k *! lsum (idxs (phys x)) (fun sg => amp y i sg a *! cj (amp y j sg b)))); [|ring]. f_equal. rewrite <- lsum_mul_l.
    apply lsum_ext. intros sg Hsg. apply In_idxs in Hsg. rewrite (Sc i sg a Hi Ha Hsg), (Sc j sg b Hj Hb Hsg), cj_mul. ring.
  Qed.
  Lemma eigen_scale D (F : (nat -> nat -> R) -> nat -> nat -> R) kap e x y :
    (forall u v k, (forall i j, i < D -> j < D -> u i j = k *! v i j) -> forall i j, i < D -> j < D -> F u i j = k *! F v i j) ->
    kap <> r0 -> eqm D D x (scm kap y) -> (forall i j, i < D -> j < D -> F x i j = e *! x i j) -> eqm D D (F y) (scm e y).
  Proof.
    intros Lin K0 Exy H i j Hi Hj. apply (cancel K0). rewrite <- (Lin x y kap Exy i j Hi Hj), (H i j Hi Hj), (Exy i j Hi Hj). unfold scm. ring.
  Qed.
  Lemma lmap_lin {I} D ss (M : I -> nat -> nat -> R) u v k : (forall i j, i < D -> j < D -> u i j = k *! v i j) -> forall i j : nat, i < D -> j < D -> lmap D ss M u i j = k *! lmap D ss M v i j.
  Proof. intros H i j _ _. unfold lmap. rewrite <- nsum_mul_l. apply nsum_ext. intros a Ha. rewrite <- nsum_mul_l. apply nsum_ext. intros b Hb. rewrite (H a b Ha Hb). ring. Qed.
  Lemma rmap_lin {I} D ss (M : I -> nat -> nat -> R) u v k : (forall i j, i < D -> j < D -> u i j = k *! v i j) -> forall i j : nat, i < D -> j < D -> rmap D ss M u i j = k *! rmap D ss M v i j.
  Proof. intros H i j _ _. unfold rmap. rewrite <- nsum_mul_l. apply nsum_ext. intros a Ha. rewrite <- nsum_mul_l. apply nsum_ext. intros b Hb. rewrite (H a b Ha Hb). ring. Qed.

  Lemma svd_at_real rel D err t p u s v tw : (forall m u s v, svdf m = Ok (u, s, v) -> forall x, In x s -> cj x = x) ->
    svd_at svdf nkeep rel D err t p = Ok (u, s, v, tw) -> forall x, In x s -> cj x = x.
  Proof.
    intros Hr H x Hx. unfold svd_at in H. destruct (svdf (as_matrix t p)) as [[[u0 s0] v0]| |] eqn:F; [|discriminate..]. cbn [rbind] in H.
    unfold svd in H. injection H as _ <- _ _. apply (Hr _ _ _ _ F). rewrite <- (firstn_skipn (nkeep rel D err s0) s0). apply in_or_app. left. exact Hx.
  Qed.

  Lemma nsum3 n1 n2 n3 (f : nat -> R) (g : nat -> nat -> R) (h : nat -> nat -> R) (w : nat -> R) :
    nsum n1 (fun x => nsum n2 (fun y => nsum n3 (fun z => f x *! (g x y *! (h y z *! w z))))) = nsum n3 (fun z => nsum n1 (fun x => f x *! nsum n2 (fun y => g x y *! h y z)) *! w z).
  Proof.
    transitivity (nsum n1 (fun x => nsum n3 (fun z => nsum n2 (fun y => f x *! (g x y *! (h y z *! w z)))))).
    - apply nsum_ext. intros x _. apply nsum_swap.
    - rewrite nsum_swap. apply nsum_ext. intros z _. rewrite <- nsum_mul_r. apply nsum_ext. intros x _.
      rewrite <- nsum_mul_l, <- nsum_mul_r. apply nsum_ext. intros y _. ring.
  Qed.
  Lemma nsum3' n1 n2 n3 (w : nat -> R) (f : nat -> nat -> R) (g : nat -> nat -> R) (h : nat -> R) :
    nsum n1 (fun x => nsum n2 (fun y => nsum n3 (fun z => w x *! (f x y *! (g y z *! h z))))) = nsum n1 (fun x => w x *! nsum n3 (fun z => nsum n2 (fun y => f x y *! g y z) *! h z)).
  Proof.
    apply nsum_ext. intros x _. rewrite nsum_swap, <- nsum_mul_l. apply nsum_ext. intros z _. rewrite <- nsum_mul_r, <- nsum_mul_l. apply nsum_ext. intros y _. ring.
  Qed.

  Notation teigs := (transfer_matrix_eigs iter nrm rdiv eigs rnd isz).
  Notation canonicalize := (MpsInf.canonicalize iter qrf svdf nkeep err_ge1 nrm rdiv eigs rnd eigh inv sqrtf absf le isz).

  Hypothesis Hisz : forall x, isz x = true <-> x = r0.
  Lemma zero_or_nonzero l r (ts : list tensor) : (forall a sg b, a < l -> b < r -> valid sg (phys ts) -> amp ts a sg b = r0) \/ nonzero l r ts.
  Proof.
    set (L := list_prod (list_prod (seq 0 l) (seq 0 r)) (idxs (phys ts))).
    set (f := fun p => isz (amp ts (fst (fst p)) (snd p) (snd (fst p)))). destruct (forallb f L) eqn:F.
    - left. intros a sg b Ha Hb V. rewrite forallb_forall in F. apply Hisz. apply (F ((a, b), sg)). unfold L.
      apply in_prod; [apply in_prod; apply in_seq; lia|]. apply In_idxs. exact V.
    - right. assert (exists p, In p L /\ f p = false) as ([[a b] sg] & Ip & Fp).
      { clear -F. induction L as [|p L IH]; [discriminate|]. cbn [forallb] in F. destruct (f p) eqn:G.
        - destruct (IH F) as (y & Iy & Fy). exists y. split; [right; exact Iy | exact Fy].
        - exists p. split; [left; reflexivity | exact G]. }
      unfold L in Ip. rewrite in_prod_iff, in_prod_iff, !in_seq, In_idxs in Ip. exists a, sg, b. split; [lia|]. split; [lia|]. split; [tauto|].
      intros Q. unfold f in Fp. cbn [fst snd] in Fp. apply Hisz in Q. congruence.
  Qed.

  Lemma lprod_mul2 (ws : list (list nat)) (x y : R) : lprod ws (fun _ => x *! y) = lprod ws (fun _ => x) *! lprod ws (fun _ => y).
  Proof. induction ws as [|w ws IH]; [rewrite !lprod_nil; ring|]. rewrite !lprod_cons, IH. ring. Qed.

  Section Run.
    Variables (D : nat) (li ri : option tensor) (err : option E) (Dm : option nat) (m m' : imps R) (nl : R).
    Notation ts := (tens (icell m)).
    Hypothesis Hc : chain D ts D.
    Hypothesis Hconn : match iconn m with Some c => shape c = [D; D] | None => True end.
    Hypothesis Hnz : exists a sg b, a < D /\ b < D /\ valid sg (phys ts) /\ cell ts (iconn m) a sg b <> r0.
    Hypothesis Hgood : forall ts' k d ini eta x, chain D ts' D -> scaled D D k ts ts' -> d <> DOther -> ini = li \/ ini = ri -> teigs ts' d ini = Ok (eta, x) ->
      sqrtf (absf eta) <> r0 /\ positive nrm rdiv eigh le cutoff D (fun i j => elt x [i; j]).
    Hypothesis Hexact : forall t p u s v tw, svd_at svdf nkeep true Dm err t p = Ok (u, s, v, tw) -> forall x, In x tw -> x = r0.
    Hypothesis Hreal : forall t u s v, svdf t = Ok (u, s, v) -> forall x, In x s -> cj x = x.
    Hypothesis Hrun : canonicalize li ri err Dm cutoff m = Ok (m', nl).

    Lemma cell_scaled k ts0 : scaled D D k ts ts0 -> forall a sg b, a < D -> b < D -> valid sg (phys ts) ->
      cell ts (iconn m) a sg b = k *! cell ts0 (iconn m) a sg b.
    Proof.
      intros [Ph Sc] a sg b Ha Hb V. unfold cell. destruct (iconn m) as [c|]; [|apply Sc; assumption].
      rewrite Hconn. cbn [nth]. rewrite <- nsum_mul_l. apply nsum_ext. intros x Hx. rewrite (Sc a sg x Ha Hx V). ring.
    Qed.
    Lemma nz_amp : nonzero D D ts.
    Proof.
      destruct (zero_or_nonzero D D ts) as [Q|Q]; [|exact Q]. exfalso.
      destruct Hnz as (a & sg & b & Ha & Hb & V & N). apply N. unfold cell. destruct (iconn m) as [c|]; [|apply Q; assumption].
      rewrite Hconn. cbn [nth]. apply nsum_zero. intros x Hx. rewrite (Q a sg x Ha Hx V). ring.
    Qed.

    (** every intermediate value, with what is needed of it *)
    Definition traced (k : nat) (sl il sr ir u v c : tensor) (s : list R) (ts0 : list tensor) (sq kap0 kap e e' : R) : Prop :=
      let M := fun (sg : list nat) (a b : nat) => amp ts0 a sg b in
      let Lam := dg (fun i => nth i s r0) in
      let ts4 := tens (icell m') in
      (eqm D D (mm D (mxt il) (mxt sl)) idm /\ eqm D D (mm D (mxt sl) (mxt il)) idm /\
       eqm D D (mm D (mxt ir) (mxt sr)) idm /\ eqm D D (mm D (mxt sr) (mxt ir)) idm /\
       eqm D D (mm k (mxt u) (mm k Lam (mxt v))) (mm D (mxt sl) (mxt sr)) /\
       eqm k k (mm D (adj (mxt u)) (mxt u)) idm /\ eqm k k (mm D (mxt v) (adj (mxt v))) idm) /\
      (length s = k /\ (forall x, In x s -> cj x = x)) /\
      (sq <> r0 /\ kap0 <> r0 /\ kap <> r0 /\ scaled D D kap0 ts ts0) /\
      (eqm D D (lmap D (idxs (phys ts)) M (Lm D (mxt sl))) (scm e (Lm D (mxt sl))) /\
       eqm D D (rmap D (idxs (phys ts)) M (Rm D (mxt sr))) (scm e' (Rm D (mxt sr)))) /\
      (chain k ts4 k /\ phys ts4 = phys ts /\ canonical ts4 (length ts - 1) /\ state_norm2 k k ts4 = r1 /\
       centre (icell m') = Some (length ts - 1)) /\
      (forall a sg b, a < k -> b < k -> valid sg (phys ts) -> sq *! (kap *! amp ts4 a sg b) =
        mm D (bY D k (mxt ir) (mxt v) Lam) (mm D (fun x y => cell ts0 (iconn m) x sg y) (bZ D k (mxt il) (mxt u) Lam)) a b) /\
      nl = nrm (vec s) /\ iconn m' = Some c /\ inv (tdiv rdiv (diagflat s) nl) = Ok c.

    Lemma run_traced : exists k sl il sr ir u v c s ts0 sq kap0 kap e e', traced k sl il sr ir u v c s ts0 sq kap0 kap e e'.
    Proof.
      pose proof Hrun as H. unfold MpsInf.canonicalize in H. pose proof nz_amp as NZ.
      destruct (pos (MPS ts (Some match centre (icell m) with Some c => c | None => 0 end)) 0%Z) as [[m0 z0]| |] eqn:P0; [|discriminate..]. cbn [rbind fst] in H.
      destruct (pos_norm Hc NZ P0) as (s0 & _ & L0 & _ & C0 & Ph0 & _ & kap0 & K0 & Sc0 & _). set (ts0 := tens m0) in *. clearbody ts0.
      assert (length ts0 = length ts) as Ln by (rewrite <- phys_length, Ph0; apply phys_length). clear s0 L0 P0 m0 z0.
      destruct (teigs ts0 DLeft li) as [[eta l]| |] eqn:Tl; [|discriminate..]. cbn [rbind] in H.
      destruct (@Hgood ts0 kap0 DLeft li eta l C0 Sc0 ltac:(discriminate) (or_introl eq_refl) Tl) as (Sq & Pl).
      destruct (@teigs_spec R iter iter_perm nrm rdiv eigs rnd isz Heigs Hrnd DLeft D ts0 li eta l ltac:(discriminate) C0 Tl) as (Sl & el & El).
      destruct ts0 as [|t0 q]; [discriminate|]. cbn [get nth_error rbind] in H.
      set (sq := sqrtf (absf eta)) in *. cbn [set_nth] in H. set (t1 := tdiv rdiv t0 sq) in *.
      destruct (roots_left iter nrm rdiv eigh sqrtf le cutoff l) as [[sl il]| |] eqn:Rl; [|discriminate..]. cbn [rbind] in H.
      destruct (@roots_left_spec R iter iter_perm nrm rdiv eigh sqrtf le cutoff Hdiv H2 Hn Heigh Hsqrt D l sl il Sl Pl Rl) as (Ssl & Sil & A1 & A2 & kl & Kl & Exl).
      pose proof C0 as C0'. destruct C0' as (d0 & k0 & St0 & Cq).
      assert (scaled D D sq (t0 :: q) (t1 :: q)) as Sc1.
      { split; [reflexivity|]. intros a sg b Ha Hb V. rewrite <- nsum_delta_l with (n := D) (a := a) (f := fun z => sq *! amp (t1 :: q) z sg b) by exact Ha.
        rewrite (@amp_first R t1 t0 q D d0 k0 D (fun i z => if i =? z then sq else r0) St0 St0); [| |exact Ha|exact V].
        - apply nsum_ext. intros z Hz. destruct (a =? z); ring.
        - intros i s j Hi Hs Hj. transitivity (nsum D (fun z => (if i =? z then r1 else r0) *! (sq *! elt t1 [z; s; j]))).
          + rewrite (nsum_delta_l (fun z => sq *! elt t1 [z; s; j]) Hi). unfold t1. cbn [tdiv elt]. symmetry. apply Hdiv. exact Sq.
          + apply nsum_ext. intros z _. destruct (i =? z); ring. }
      assert (chain D (t1 :: q) D) as C1 by (exists d0, k0; split; [exact St0 | exact Cq]).
      assert (scaled D D (kap0 *! sq) ts (t1 :: q)) as Sc01 by (eapply scaled_trans; eassumption).
      destruct (teigs (t1 :: q) DRight ri) as [[eta' r]| |] eqn:Tr; [|discriminate..]. cbn [rbind] in H.
      destruct (@Hgood (t1 :: q) (kap0 *! sq) DRight ri eta' r C1 Sc01 ltac:(discriminate) (or_intror eq_refl) Tr) as (_ & Pr).
      destruct (@teigs_spec R iter iter_perm nrm rdiv eigs rnd isz Heigs Hrnd DRight D (t1 :: q) ri eta' r ltac:(discriminate) C1 Tr) as (Sr & er & Er).
      destruct (roots_right iter nrm rdiv eigh sqrtf le cutoff r) as [[sr ir]| |] eqn:Rr; [|discriminate..]. cbn [rbind] in H.
      destruct (@roots_right_spec R iter iter_perm nrm rdiv eigh sqrtf le cutoff Hdiv H2 Hn Heigh Hsqrt D r sr ir Sr Pr Rr) as (Ssr & Sir & B1 & B2 & kr & Kr & Exr).
      destruct (@ncon_mm R iter iter_perm sl sr D D D Ssl Ssr) as (tmp & Et & Stm & Vt). rewrite Et in H. cbn [rbind] in H.
      destruct (svd_at svdf nkeep true Dm err tmp 1) as [[[[u s] v] tw]| |] eqn:Sv; [|discriminate..]. cbn [rbind] in H.
      destruct (@svd_at_spec R E svdf nkeep Hsvd tmp u v s tw true Dm err [D] [D] 1 Stm eq_refl Sv) as (Su & Svv & Iu & Iv & Rec).
      specialize (Rec (Hexact Sv)). set (k := length s) in *. cbn [app] in Su, Svv.
      pose proof (svd_at_real Hreal Sv) as Rs. set (Lam := dg (fun i => nth i s r0)).
      destruct (@ncon_first R iter iter_perm (diagflat s) v ir t1 k k D D d0 k0) as (x & Ex & Sx & Vx); [reflexivity | exact Svv | exact Sir | exact St0|].
      cbn [get nth_error rbind] in H. rewrite Ex in H. cbn [rbind set_nth length] in H.
      replace (S (length q) - 1) with (length q) in H by lia.
      assert (length ts - 1 = length q) as Lq by (rewrite <- Ln; cbn [length]; lia).
      set (Y := bY D k (mxt ir) (mxt v) Lam). set (Z := bZ D k (mxt il) (mxt u) Lam).
      assert (phys (t0 :: q) = phys ts) as Ph by exact Ph0. assert (phys (x :: q) = phys ts) as Phx by (rewrite <- Ph; unfold phys; cbn [map]; rewrite Sx, St0; reflexivity).
      assert (forall a sg b, a < k -> b < D -> valid sg (phys ts) -> sq *! amp (x :: q) a sg b = mm D Y (fun c b => amp (t0 :: q) c sg b) a b) as Ax.
      { intros a sg b Ha Hb V. rewrite <- Ph in V. rewrite (@amp_first R t1 x q D d0 k0 k Y St0 Sx); [| |exact Ha|exact V].
        - rewrite <- nsum_mul_l. unfold mm. apply nsum_ext. intros z Hz. rewrite (proj2 Sc1 z sg b Hz Hb V). ring.
        - intros i s' j Hi Hs Hj. rewrite (Vx i s' j Hi Hs Hj). rewrite nsum3. apply nsum_ext. intros z Hz. reflexivity. }
      assert (chain k (x :: q) D) as Cx by (exists d0, k0; split; [exact Sx | exact Cq]).
      assert (forall a sg b, a < k -> b < D -> valid sg (phys ts) -> sq *! cell (x :: q) (iconn m) a sg b = mm D Y (fun c b => cell (t0 :: q) (iconn m) c sg b) a b) as Acx.
      { intros a sg b Ha Hb V. unfold cell. destruct (iconn m) as [c|]; [|apply Ax; assumption]. rewrite Hconn. cbn [nth].
        transitivity (mm D (mm D Y (fun c b => amp (t0 :: q) c sg b)) (fun y z => elt c [y; z]) a b).
        - unfold mm at 1. rewrite <- nsum_mul_l. apply nsum_ext. intros z Hz. rewrite <- (Ax a sg z Ha Hz V). ring.
        - apply (@mm_assoc R k D D D); assumption. }
      assert (exists p t, x :: q = p ++ [t] /\ length p = length q) as (p & t & Ep & Lp).
      { destruct (@exists_last _ (x :: q)) as (p & t & Ep); [discriminate|]. exists p, t. split; [exact Ep|].
        apply (f_equal (@length tensor)) in Ep. rewrite app_length in Ep. cbn [length] in Ep. lia. }
      rewrite Ep in H, Cx, Phx, Acx. apply chain_app in Cx. destruct Cx as (mb & Cp & (d1 & D' & St & CD)). cbn [chain] in CD. subst D'.
      assert (exists t2, get_tensor iter (IMPS (MPS (p ++ [t]) (Some 0)) (iconn m)) (length q) = Ok t2 /\ shape t2 = [mb; d1; D] /\
              forall a sg b, a < k -> b < D -> valid sg (phys ts) -> amp (p ++ [t2]) a sg b = cell (p ++ [t]) (iconn m) a sg b) as (t2 & Et2 & St2 & At2).
      { unfold get_tensor. cbn [icell tens iconn]. rewrite app_length. cbn [length]. replace (length q <? length p + 1) with true by (symmetry; apply Nat.ltb_lt; lia).
        cbn [guard]. rewrite <- Lp, get_mid. cbn [rbind]. unfold cell. destruct (iconn m) as [c|].
        - replace (length p =? length p + 1 - 1) with true by (symmetry; apply Nat.eqb_eq; lia).
          destruct (@ncon_tm R iter iter_perm t c mb d1 D D St Hconn) as (t2 & E2 & S2 & V2). exists t2. split; [exact E2|]. split; [exact S2|].
          intros a sg b Ha Hb V. rewrite Hconn. cbn [nth]. rewrite <- Phx in V. apply (@amp_last R p t t2 k mb d1 D D (fun z j => elt c [z; j]) Cp St S2 V2 a sg b Ha Hb V).
        - exists t. split; [reflexivity|]. split; [exact St|]. reflexivity. }
      rewrite Et2 in H. cbn [rbind] in H.
      destruct (@ncon_last R iter iter_perm t2 il u (diagflat s) mb d1 D D k k) as (y & Ey & Sy & Vy); [exact St2 | exact Sil | exact Su | reflexivity|].
      rewrite Ey in H. cbn [rbind] in H. rewrite <- Lp in H. rewrite set_nth_app in H.
      assert (phys (p ++ [y]) = phys ts) as Phy by (rewrite <- Phx, !phys_app; cbn [phys map]; rewrite Sy, St; reflexivity).
      assert (phys (p ++ [t2]) = phys ts) as Ph2 by (rewrite <- Phx, !phys_app; cbn [phys map]; rewrite St2, St; reflexivity).
      assert (forall a sg b, a < k -> b < k -> valid sg (phys ts) -> sq *! amp (p ++ [y]) a sg b = mm D Y (mm D (fun c b => cell (t0 :: q) (iconn m) c sg b) Z) a b) as Ay.
      { intros a sg b Ha Hb V. rewrite (@amp_last R p t2 y k mb d1 D k Z Cp St2 Sy); [| |exact Ha|exact Hb|rewrite Ph2; exact V].
        - rewrite <- nsum_mul_l. transitivity (mm D (mm D Y (fun c b => cell (t0 :: q) (iconn m) c sg b)) Z a b); [|apply (@mm_assoc R k D D k); assumption].
          unfold mm at 1. apply nsum_ext. intros z Hz. rewrite (At2 a sg z Ha Hz V), <- (Acx a sg z Ha Hz V). ring.
        - intros i s' j Hi Hs Hj. rewrite (Vy i s' j Hi Hs Hj). rewrite nsum3'. apply nsum_ext. intros z Hz. reflexivity. }
      assert (chain k (p ++ [y]) k) as Cy by (apply chain_app; exists mb; split; [exact Cp|]; exists d1, k; split; [exact Sy | reflexivity]).
      assert (eqm k k (mm D (adj (mxt u)) (mxt u)) idm) as HU.
      { intros i j Hi Hj. unfold idm. rewrite Nat.eqb_sym, <- (Iu j i Hj Hi). unfold mm, adj, mxt. rewrite lsum_idxs_cons. apply nsum_ext. intros c Hcd. cbn. ring. }
      assert (eqm k k (mm D (mxt v) (adj (mxt v))) idm) as HV.
      { intros i j Hi Hj. unfold idm. rewrite <- (Iv i j Hi Hj). unfold mm, adj, mxt. rewrite lsum_idxs_cons. apply nsum_ext. intros c Hcd. cbn. ring. }
      assert (eqm D D (mm k (mxt u) (mm k Lam (mxt v))) (mm D (mxt sl) (mxt sr))) as HS.
      { intros i j Hi Hj. unfold mm at 3. transitivity (elt tmp [i; j]); [|exact (Vt i j Hi Hj)].
        pose proof (Rec [i] [j] (valid1 Hi) (valid1 Hj)) as Eij. cbn [app] in Eij. rewrite <- Eij. unfold mm at 1. apply nsum_ext. intros c Hcd. unfold mm, Lam, dg.
        rewrite (@nsum_dg_l R k c (fun l0 => mxt v l0 j) (fun l0 => nth l0 s r0) Hcd). unfold mxt. cbn [app]. ring. }
      assert (nonzero k k (p ++ [y])) as NZy.
      { destruct (zero_or_nonzero k k (p ++ [y])) as [Q|Q]; [|exact Q]. exfalso. destruct Hnz as (a & sg & b & Ha & Hb & V & N). apply N.
        rewrite (cell_scaled Sc0 Ha Hb V). set (Mc := fun c b => cell (t0 :: q) (iconn m) c sg b).
        pose proof (XY A1 B2 HS) as EXY. fold Y in EXY.
        assert (eqm D D Mc (mm k (bX D (mxt il) (mxt u)) (mm k (mm D Y (mm D Mc Z)) (mm D (mxt v) (mxt ir))))) as EM.
        { assert (eqm D D (mm k Z (mm D (mxt v) (mxt ir))) idm) as EZ.
          { unfold Z, bZ. rewrite (@mm_assoc R D k k D). exact EXY. }
          rewrite (@mm_assoc R k D k D Y), (@mm_assoc R D D k D Mc Z), EZ, (@mm_id_r R D D), <- (@mm_assoc R D k D D _ Y), EXY, (@mm_id_l R D D). reflexivity. }
        change (cell (t0 :: q) (iconn m) a sg b) with (Mc a b). rewrite (EM a b Ha Hb).
        assert (forall c d, c < k -> d < k -> mm D Y (mm D Mc Z) c d = r0) as Z0.
        { intros c d Hcd Hd. unfold Mc. rewrite <- (Ay c sg d Hcd Hd V). rewrite <- Phy in V. rewrite (Q c sg d Hcd Hd V). ring. }
        unfold mm at 1. rewrite nsum_zero; [ring|]. intros c Hcd.
        transitivity (bX D (mxt il) (mxt u) a c *! nsum k (fun d => mm D Y (mm D Mc Z) c d *! mm D (mxt v) (mxt ir) d b)); [reflexivity|].
        rewrite (@nsum_zero R k); [ring|]. intros d Hd. rewrite (Z0 c d Hcd Hd). ring. }
      destruct (pos (MPS (p ++ [y]) (Some 0)) (Z.of_nat (S (length p)) - 1)%Z) as [[m4 z4]| |] eqn:P4; [|discriminate..]. cbn [rbind fst] in H.
      destruct (pos_norm Cy NZy P4) as (s4 & E4 & L4 & _ & C4 & Ph4 & K4 & kap & Kap & Sc4 & N4).
      assert (s4 = length p) as -> by lia. rewrite app_length in K4. cbn [length] in K4. specialize (K4 eq_refl eq_refl). specialize (N4 K4).
      destruct (inv (tdiv rdiv (diagflat s) (nrm (vec s)))) as [c| |] eqn:Ei; [|discriminate..]. cbn [rbind] in H. injection H as Hm Hl.
      exists k, sl, il, sr, ir, u, v, c, s, (t0 :: q), sq, kap0, kap, el, (sq *! cj sq *! er). unfold traced. rewrite <- Hm. cbn [icell tens centre iconn].
      rewrite Lq, <- Lp. fold Lam Y Z.
      split; [exact (conj A1 (conj A2 (conj B1 (conj B2 (conj HS (conj HU HV))))))|].
      split; [split; [reflexivity | exact Rs]|]. split; [exact (conj Sq (conj K0 (conj Kap Sc0)))|]. split; [split|].
      - rewrite <- Ph. apply (@eigen_scale D (lmap D (idxs (phys (t0 :: q))) (fun sg a b => amp (t0 :: q) a sg b)) kl el (mxt l)); [|exact Kl | exact Exl | exact El].
        intros u0 v0 k1 Huv. apply lmap_lin. exact Huv.
      - rewrite <- Ph. apply (@eigen_scale D (rmap D (idxs (phys (t0 :: q))) (fun sg a b => amp (t0 :: q) a sg b)) kr (sq *! cj sq *! er) (mxt r)); [|exact Kr | exact Exr |].
        + intros u0 v0 k1 Huv. apply rmap_lin. exact Huv.
        + exact (right_eigen_scaled Sc1 Er).
      - split; [rewrite Ph4, Phy; auto|]. split.
        2:{ split; [symmetry; exact Hl|]. split; [reflexivity|]. rewrite <- Hl. exact Ei. }
        intros a sg b Ha Hb V. rewrite <- (Ay a sg b Ha Hb V). f_equal. symmetry. apply (proj2 Sc4); [exact Ha | exact Hb | rewrite Phy; exact V].
    Qed.
    Lemma nsum_nz_pos n : (exists a, a < n) -> (r1 : R) <> r0 -> ~ eqm n n (fun _ _ => r0) (@idm R).
    Proof. intros (a & Ha) O1 Q. apply O1. specialize (Q a a Ha Ha). unfold idm in Q. rewrite Nat.eqb_refl in Q. auto. Qed.
    Lemma one_nz : (r1 : R) <> r0.
    Proof.
      intros Q. destruct Hnz as (a & sg & b & _ & _ & _ & N). apply N. set (x := cell ts (iconn m) a sg b). transitivity (r1 *! x); [ring|]. rewrite Q. ring.
    Qed.
    Lemma D_pos : exists a, a < D.
    Proof. destruct Hnz as (a & _ & _ & Ha & _). exists a. exact Ha. Qed.

    Lemma result : exists k ss c,
      chain k (tens (icell m')) k /\ phys (tens (icell m')) = phys ts /\ centre (icell m') = Some (length ts - 1) /\
      canonical (tens (icell m')) (length ts - 1) /\ iconn m' = Some c /\ shape c = [k; k] /\
      length ss = k /\ (forall x, In x ss -> cj x = x) /\ nsum k (fun i => nth i ss r0 *! nth i ss r0) = r1 /\
      (forall i j, i < k -> j < k -> nth i ss r0 *! elt c [i; j] = if i =? j then r1 else r0) /\
      (exists z, z <> r0 /\ forall ws, ws <> [] -> (forall w, In w ws -> valid w (phys ts)) ->
         ring_amp D (cell ts (iconn m)) ws = lprod ws (fun _ => z) *! ring_amp k (cell (tens (icell m')) (Some c)) ws) /\
      (iconn m = None -> left_normal k (phys ts) (cell (tens (icell m')) (Some c)) /\ right_normal k (phys ts) (cell_from_left (tens (icell m')) c)).
    Proof.
      destruct run_traced as (k & sl & il & sr & ir & u & v & c & s & ts0 & sq & kap0 & kap & e & e' & T).
      destruct T as ((A1 & A2 & B1 & B2 & HS & HU & HV) & (Ls & Rs) & (Sq & K0 & Kap & Sc0) & (FL & FR) & (C4 & Ph4 & K4 & N4 & Ce) & Amp & Enl & Ec & Ei).
      set (M := fun (sg : list nat) (a b : nat) => amp ts0 a sg b) in *. set (Lam := dg (fun i => nth i s r0)) in *.
      set (ts4 := tens (icell m')) in *. set (Y := bY D k (mxt ir) (mxt v) Lam) in *. set (Z := bZ D k (mxt il) (mxt u) Lam) in *.
      set (X := bX D (mxt il) (mxt u)). pose proof (XY A1 B2 HS) as EXY. fold Y X in EXY.
      assert (nl <> r0) as Nl.
      { intros Q. rewrite Enl in Q. assert (forall i, i < k -> nth i s r0 = r0) as S0.
        { intros i Hi. apply (proj1 Hn (vec s) Q [i]). cbn [vec shape]. rewrite Ls. apply valid1. exact Hi. }
        apply (nsum_nz_pos D_pos one_nz). transitivity (mm k X Y); [|exact EXY]. intros i j Hi Hj. symmetry. unfold mm at 1. apply nsum_zero. intros a Ha.
        transitivity (X i a *! nsum k (fun b => Lam a b *! mm D (mxt v) (mxt ir) b j)); [reflexivity|]. rewrite (@nsum_zero R k); [ring|].
        intros b Hb. unfold Lam, dg. rewrite (S0 a Ha). destruct (a =? b); ring. }
      assert (shape (tdiv rdiv (diagflat s) nl) = [k; k]) as SL by (cbn [tdiv diagflat shape]; rewrite Ls; reflexivity).
      destruct (Hinv SL Ei) as (Sc & Iv).
      set (g := fun i => rdiv (nth i s r0) nl).
      assert (forall x, nl *! rdiv x nl = x) as Dn by (intros x; apply Hdiv; exact Nl).
      assert (rdiv r0 nl = r0) as D0 by (apply (cancel Nl); rewrite Dn; ring).
      assert (forall i j, elt (tdiv rdiv (diagflat s) nl) [i; j] = if i =? j then g i else r0) as EL.
      { intros i j. cbn [tdiv elt diagflat nth]. unfold g. destruct (i =? j); [reflexivity | exact D0]. }
      assert (forall i j, i < k -> j < k -> g i *! elt c [i; j] = if i =? j then r1 else r0) as G1.
      { intros i j Hi Hj. rewrite <- (proj1 (Iv i j Hi Hj)). symmetry. transitivity (nsum k (fun l => (if i =? l then g i else r0) *! elt c [l; j])).
        - apply nsum_ext. intros l _. rewrite EL. reflexivity.
        - apply (@nsum_dg_l R k i (fun l => elt c [l; j]) g Hi). }
      assert (forall i j, i < k -> j < k -> elt c [i; j] *! g j = if i =? j then r1 else r0) as G2.
      { intros i j Hi Hj. rewrite <- (proj2 (Iv i j Hi Hj)). symmetry. transitivity (nsum k (fun l => elt c [i; l] *! (if l =? j then g l else r0))).
        - apply nsum_ext. intros l _. rewrite EL. reflexivity.
        - apply (@nsum_dg_r R k j (fun l => elt c [i; l]) g Hj). }
      assert (forall i, nl *! g i = nth i s r0) as Gs by (intros i; apply Dn).
      pose proof (proj2 Hn (vec s)) as [Rnl Nsq]. rewrite <- Enl in Rnl, Nsq. cbn [vec shape] in Nsq. rewrite lsum_idxs_cons, Ls in Nsq.
      assert (forall i, i < k -> cj (nth i s r0) = nth i s r0) as Rsi by (intros i Hi; apply Rs, nth_In; lia).
      assert (nl *! nl = nsum k (fun i => nth i s r0 *! nth i s r0)) as Nsq'.
      { rewrite Nsq. apply nsum_ext. intros i Hi. cbn. rewrite (Rsi i Hi). ring. }
      assert (forall i, i < k -> cj (g i) = g i) as Rg.
      { intros i Hi. apply (cancel Nl). rewrite <- Rnl at 1. rewrite <- cj_mul, Gs. apply Rsi. exact Hi. }
      set (P := fun (sg : list nat) => bP D k (mxt il) (mxt ir) (mxt u) (mxt v) Lam (fun sg x y => cell ts0 (iconn m) x sg y) sg).
      set (zz := sq *! kap). assert (zz <> r0) as Zz by (apply mul_nz; assumption).
      assert (forall a sg b, a < k -> b < k -> valid sg (phys ts) -> zz *! amp ts4 a sg b = P sg a b *! nth b s r0) as AmpP.
      { intros a sg b Ha Hb V. set (Mc := fun x y => cell ts0 (iconn m) x sg y). transitivity (sq *! (kap *! amp ts4 a sg b)); [unfold zz; ring|]. rewrite (Amp a sg b Ha Hb V).
        fold Mc. unfold P, bP. fold Y X Mc. unfold Z, bZ. fold X.
        assert (eqm k k (mm D Y (mm D Mc (mm k X Lam))) (mm k (mm D Y (mm D Mc X)) Lam)) as EE.
        { rewrite (@mm_assoc R k D k k Y (mm D Mc X) Lam), (@mm_assoc R D D k k Mc X Lam). reflexivity. }
        rewrite (EE a b Ha Hb). unfold mm at 1. unfold Lam, dg at 1. rewrite (@nsum_dg_r R k b _ (fun i => nth i s r0) Hb). reflexivity. }
      (** the new cell is a multiple of the old one in another basis *)
      assert (forall a sg b, a < k -> b < k -> valid sg (phys ts) -> zz *! cell ts4 (Some c) a sg b = nl *! P sg a b) as Cell.
      { intros a sg b Ha Hb V. unfold cell. rewrite Sc. cbn [nth]. rewrite <- nsum_mul_l.
        transitivity (nsum k (fun x => (P sg a x *! nl) *! (if x =? b then r1 else r0))).
        - apply nsum_ext. intros x Hx. rewrite <- (G1 x b Hx Hb). transitivity ((zz *! amp ts4 a sg x) *! elt c [x; b]); [ring|].
          rewrite (AmpP a sg x Ha Hx V), <- (Gs x). ring.
        - rewrite (@nsum_delta_r R k b (fun x => P sg a x *! nl) Hb). ring. }
      exists k, (map (fun x => rdiv x nl) s), c.
      assert (forall i, i < k -> nth i (map (fun x => rdiv x nl) s) r0 = g i) as Ng.
      { intros i Hi. rewrite (@nth_indep R _ i r0 (rdiv r0 nl)) by (rewrite map_length; lia). apply (map_nth (fun x => rdiv x nl)). }
      split; [exact C4|]. split; [exact Ph4|]. split; [exact Ce|]. split; [exact K4|]. split; [exact Ec|]. split; [exact Sc|].
      split; [rewrite map_length; exact Ls|]. split.
      { intros x Hx. apply In_nth with (d := r0) in Hx. destruct Hx as (i & Hi & <-). rewrite map_length, Ls in Hi. rewrite (Ng i Hi). apply Rg. exact Hi. }
      split.
      { apply (@cancel (nl *! nl)); [apply mul_nz; assumption|]. rewrite <- nsum_mul_l. transitivity (nsum k (fun i => nth i s r0 *! nth i s r0)); [|rewrite <- Nsq'; ring]. apply nsum_ext. intros i Hi.
        rewrite (Ng i Hi), <- (Gs i). ring. }
      split; [intros i j Hi Hj; rewrite (Ng i Hi); apply G1; assumption|]. split.
      { exists (kap0 *! (rdiv r1 nl *! zz)). assert (rdiv r1 nl <> r0) as Ri.
        { intros Q. apply one_nz. rewrite <- (Dn r1), Q. ring. }
        split; [apply mul_nz; [exact K0|apply mul_nz; assumption]|]. intros ws Hw Vw.
        rewrite (@ring_scale R D (cell ts (iconn m)) (cell ts0 (iconn m)) kap0 ws).
        2:{ intros a w b Iw Ha Hb. apply (cell_scaled Sc0); [exact Ha | exact Hb | apply Vw; exact Iw]. }
        rewrite <- (@ring_gauge R D k X Y (cell ts0 (iconn m)) (fun a w b => P w a b) ws EXY Hw).
        2:{ intros w Iw. reflexivity. }
        rewrite (@ring_scale R k (fun a w b => P w a b) (cell ts4 (Some c)) (rdiv r1 nl *! zz) ws).
        2:{ intros a w b Iw Ha Hb. apply (cancel Nl). rewrite <- (Cell a w b Ha Hb (Vw w Iw)). transitivity ((nl *! rdiv r1 nl) *! (zz *! cell ts4 (Some c) a w b)); [rewrite Dn; ring | ring]. }
        rewrite (@lprod_mul2 ws kap0 (rdiv r1 nl *! zz)). ring. }
      intros Hnone.
      assert (forall sg, P sg = bP D k (mxt il) (mxt ir) (mxt u) (mxt v) Lam M sg) as PM by (intros sg; unfold P; rewrite Hnone; reflexivity).
      clearbody P. rewrite Hnone in Amp.
      set (Q := bQ D k (mxt il) (mxt ir) (mxt u) (mxt v) Lam M).
      assert (forall a sg b, a < k -> b < k -> valid sg (phys ts) -> zz *! cell_from_left ts4 c a sg b = nl *! Q sg a b) as CellQ.
      { intros a sg b Ha Hb V. unfold cell_from_left. rewrite Sc. cbn [nth]. rewrite <- nsum_mul_l.
        transitivity (nsum k (fun x => (if a =? x then r1 else r0) *! (nl *! Q sg x b))).
        - apply nsum_ext. intros x Hx. rewrite <- (G2 a x Ha Hx). transitivity (elt c [a; x] *! (sq *! (kap *! amp ts4 x sg b))); [unfold zz; ring|].
          rewrite (Amp x sg b Hx Hb V). cbn [cell]. fold (M sg). set (W := mm D (M sg) Z).
          assert (mm D Y W x b = nth x s r0 *! Q sg x b) as EQ.
          { unfold Y, bY, Q, bQ. fold Z W. rewrite (@mm_assoc R k k D k Lam (mm D (mxt v) (mxt ir)) W x b Hx Hb). unfold mm at 1. unfold Lam, dg at 1.
            rewrite (@nsum_dg_l R k x _ (fun i => nth i s r0) Hx). reflexivity. }
          change (elt c [a; x] *! mm D Y W x b = elt c [a; x] *! g x *! (nl *! Q sg x b)). rewrite EQ, <- (Gs x). ring.
        - rewrite (@nsum_delta_l R k a (fun x => nl *! Q sg x b) Ha). reflexivity. }
      pose proof (@left_gram R D k _ _ _ _ _ _ Lam A2 B2 HS HU _ (idxs (phys ts)) M e) as LG.
      specialize (LG ltac:(rewrite lmap_msum; exact FL)).
      pose proof (@right_gram R D k _ _ _ _ _ _ Lam A1 B1 HS HV _ (idxs (phys ts)) M e') as RG.
      specialize (RG ltac:(rewrite rmap_msum; exact FR)).
      set (N2 := zz *! cj zz).
      assert (forall f F : nat -> list nat -> nat -> R, (forall a sg b, a < k -> b < k -> valid sg (phys ts) -> zz *! f a sg b = F a sg b) ->
        forall a sg b a' b', a < k -> b < k -> a' < k -> b' < k -> valid sg (phys ts) -> N2 *! (f a sg b *! cj (f a' sg b')) = F a sg b *! cj (F a' sg b')) as Two.
      { intros f F Q1 a sg b a' b' Ha Hb Ha' Hb' V. rewrite <- (Q1 a sg b Ha Hb V), <- (Q1 a' sg b' Ha' Hb' V), cj_mul. unfold N2. ring. }
      assert (forall i j, i < k -> j < k -> nsum k (fun a => lsum (idxs (phys ts)) (fun sg => P sg a i *! cj (P sg a j))) = e *! (if i =? j then r1 else r0)) as LG'.
      { intros i j Hi Hj. unfold nsum; rewrite (@lsum_swap R). refine (eq_trans _ (LG i j Hi Hj)). apply lsum_ext. intros sg _. rewrite PM. reflexivity. }
      assert (forall i j, i < k -> j < k -> nsum k (fun b => lsum (idxs (phys ts)) (fun sg => Q sg i b *! cj (Q sg j b))) = e' *! (if i =? j then r1 else r0)) as RG'.
      { intros i j Hi Hj. unfold nsum; rewrite (@lsum_swap R). exact (RG i j Hi Hj). }
      assert (N2 = nl *! nl *! e) as F2.
      { transitivity (N2 *! state_norm2 k k ts4); [rewrite N4; ring|]. unfold state_norm2. rewrite <- nsum_mul_l.
        transitivity (nsum k (fun a => nsum k (fun b => nth b s r0 *! nth b s r0 *! lsum (idxs (phys ts)) (fun sg => P sg a b *! cj (P sg a b))))).
        - apply nsum_ext. intros a Ha. rewrite <- nsum_mul_l. apply nsum_ext. intros b Hb. rewrite Ph4, <- !lsum_mul_l. apply lsum_ext. intros sg V. apply In_idxs in V.
          rewrite (Two (fun a sg b => amp ts4 a sg b) (fun a sg b => P sg a b *! nth b s r0) AmpP a sg b a b Ha Hb Ha Hb V), cj_mul, (Rsi b Hb). ring.
        - rewrite nsum_swap. transitivity (nsum k (fun b => nth b s r0 *! nth b s r0 *! e)).
          + apply nsum_ext. intros b Hb. rewrite nsum_mul_l. rewrite (LG' b b Hb Hb), Nat.eqb_refl. ring.
          + rewrite nsum_mul_r. rewrite Nsq'. reflexivity. }
      assert (N2 <> r0) as N2z.
      { apply mul_nz; [exact Zz|]. intros Q0. apply Zz. rewrite <- (@cj_inv R zz), Q0. apply cj_0. }
      assert (e = e') as Ee.
      { pose proof (same_eigenvalue FL FR) as SE. apply (@cancel (mdot D (Lm D (mxt sl)) (Rm D (mxt sr)))); [|exact SE].
        rewrite mdot_LmRm. set (tt := Tensor [D; D] (fun ix => mm D (mxt sl) (mxt sr) (nth 0 ix 0) (nth 1 ix 0))).
        intros Q0. assert (nrm tt *! nrm tt = r0) as Q1.
        { rewrite (proj2 (proj2 Hn tt)). rewrite <- Q0. change (shape tt) with [D; D]. rewrite lsum_idxs_cons. apply nsum_ext. intros i _. rewrite lsum_idxs_cons. apply nsum_ext. intros j _.
          cbn. ring. }
        assert (nrm tt = r0) as Q2.
        { destruct (isz (nrm tt)) eqn:Iz; [apply Hisz; exact Iz|]. exfalso. assert (nrm tt <> r0) as Q2 by (intros Q2; apply Hisz in Q2; congruence). exact (mul_nz Q2 Q2 Q1). }
        apply (nsum_nz_pos D_pos one_nz). transitivity (mm D (mxt il) (mm D (mm D (mxt sl) (mxt sr)) (mxt ir))).
        - intros i j Hi Hj. symmetry. unfold mm at 1. apply nsum_zero. intros x Hx. unfold mm at 1. rewrite (@nsum_zero R D); [ring|]. intros y Hy.
          pose proof (proj1 Hn tt Q2 [x; y] (valid2 Hx Hy)) as Q3. cbn [tt elt nth] in Q3. rewrite Q3. ring.
        - rewrite (@mm_assoc R D D D D (mxt sl) (mxt sr) (mxt ir)), B2, (@mm_id_r R D D (mxt sl)). exact A1. }
      split.
      - intros i j Hi Hj. apply (cancel N2z). transitivity (nl *! nl *! (e *! (if i =? j then r1 else r0))).
        + rewrite <- (LG' i j Hi Hj), <- !nsum_mul_l. apply nsum_ext. intros a Ha. rewrite <- !lsum_mul_l. apply lsum_ext. intros sg V. apply In_idxs in V.
          rewrite (Two (cell ts4 (Some c)) (fun a sg b => nl *! P sg a b) Cell a sg i a j Ha Hi Ha Hj V), cj_mul, Rnl. ring.
        + rewrite F2. ring.
      - intros i j Hi Hj. apply (cancel N2z). transitivity (nl *! nl *! (e' *! (if i =? j then r1 else r0))).
        + rewrite <- (RG' i j Hi Hj), <- !nsum_mul_l. apply nsum_ext. intros b Hb. rewrite <- !lsum_mul_l. apply lsum_ext. intros sg V. apply In_idxs in V.
          rewrite (Two (cell_from_left ts4 c) (fun a sg b => nl *! Q sg a b) CellQ i sg b j b Hi Hb Hj Hb V), cj_mul, Rnl. ring.
        + rewrite F2, Ee. ring.
    Qed.
  End Run.
End Canon.

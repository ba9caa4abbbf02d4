(** * MpsInfFacts: the transfer operator of a unit cell, its eigenvectors and their square roots *)
From Coq Require Import List ZArith Lia Permutation.
From Verif Require Import Prelude Res Algebra Tensor TensorFacts ListFacts BlockSparse Backends
  Mps MpsSpec MpsNcon MpsState MpsMeasureSpec MpsDouble MpsPosition MpsInf MpsInfSpec MpsInfNcon MpsInfAlg.
Import ListNotations.
Set Implicit Arguments.
Unset Strict Implicit.
Local Open Scope nat_scope.
Local Open Scope csr_scope.

Section Facts.
  Context {R : cjr}.
  Add Ring Rring : (rsr R).
  Notation tensor := (Tensor.tensor R).
  Variable iter : list Z -> list Z.
  Hypothesis iter_perm : forall l, Permutation (iter l) l.
  Variable nrm : tensor -> R.
  Variable rdiv : R -> R -> R.
  Variable eigs : (tensor -> res tensor) -> tensor -> res (R * tensor).
  Variable rnd : nat -> tensor.
  Variable eigh : tensor -> res (list R * tensor).
  Variable sqrtf : R -> R.
  Variable le : R -> R -> bool.
  Variable isz : R -> bool.

  Lemma get_mid (p : list tensor) t q : get (p ++ t :: q) (length p) = Ok t.
  Proof. unfold get. rewrite nth_error_app2, Nat.sub_diag by lia. reflexivity. Qed.

  Lemma over_left (q : list tensor) : forall p m r x, chain m q r -> shape x = [m; m] ->
    exists y, over iter (p ++ q) DLeft (seq (length p) (length q)) x = Ok y /\ shape y = [r; r] /\
      forall i j, i < r -> j < r -> elt y [i; j] = nsum m (fun a => nsum m (fun b => elt x [a; b] *! double q (idents q) a b i j)).
  Proof.
    induction q as [|t q IH]; intros p m r x C Sx.
    - cbn [chain] in C. subst r. exists x. split; [reflexivity|]. split; [exact Sx|]. intros i j Hi Hj. cbn [idents map].
      transitivity (nsum m (fun a => elt x [a; j] *! (if a =? i then r1 else r0))).
      + symmetry. apply (nsum_delta_r (fun a => elt x [a; j]) Hi).
      + apply nsum_ext. intros a Ha. symmetry. transitivity (nsum m (fun b => (elt x [a; b] *! (if a =? i then r1 else r0)) *! (if b =? j then r1 else r0))).
        * apply nsum_ext. intros b Hb. rewrite double_nil. ring.
        * apply (nsum_delta_r (fun b => elt x [a; b] *! (if a =? i then r1 else r0)) Hj).
    - destruct C as (d & k & St & C). cbn [length seq over]. unfold apply_transfer_operator. rewrite get_mid. cbn [rbind].
      destruct (@ncon_left_transfer R iter iter_perm t x (conj_t t) m d k m k) as (y & Ey & Sy & Vy); [exact St | exact Sx | exact St |].
      rewrite Ey. cbn [rbind]. destruct (IH (p ++ [t]) k r y C Sy) as (z & Ez & Sz & Vz).
      rewrite <- app_assoc in Ez. cbn [app] in Ez. rewrite app_length, Nat.add_1_r in Ez. exists z. split; [exact Ez|]. split; [exact Sz|].
      intros i j Hi Hj. rewrite (Vz i j Hi Hj). cbn [idents map]. fold (idents q).
      transitivity (nsum m (fun a => nsum m (fun b => nsum k (fun f => nsum k (fun f' => elt x [a; b] *! (tstep ident t a b f f' *! double q (idents q) f f' i j)))))).
      + transitivity (nsum k (fun f => nsum k (fun f' => nsum m (fun a => nsum m (fun b => elt x [a; b] *! (tstep ident t a b f f' *! double q (idents q) f f' i j)))))).
        * apply nsum_ext. intros f Hf. apply nsum_ext. intros f' Hf'. rewrite (Vy f f' Hf Hf').
          rewrite <- nsum_mul_r. apply nsum_ext. intros a Ha.
          transitivity (nsum m (fun b => nsum d (fun s => elt x [a; b] *! (elt t [a; s; f] *! cj (elt t [b; s; f'])))) *! double q (idents q) f f' i j).
          { rewrite (nsum_swap d m). reflexivity. }
          rewrite <- nsum_mul_r. apply nsum_ext. intros b Hb. rewrite (tstep_ident a b f f' St), nsum_mul_l. ring.
        * unfold nsum. symmetry. apply (@lsum_swap22 R).
      + apply nsum_ext. intros a Ha. apply nsum_ext. intros b Hb. rewrite (@double_cons R t q ident (idents q) m d k a b i j St).
        rewrite <- nsum_mul_l. apply nsum_ext. intros f Hf. rewrite <- nsum_mul_l. reflexivity.
  Qed.

  Lemma over_right (p : list tensor) : forall q l r x, chain l p r -> shape x = [r; r] ->
    exists y, over iter (p ++ q) DRight (rev (seq 0 (length p))) x = Ok y /\ shape y = [l; l] /\
      forall i j, i < l -> j < l -> elt y [i; j] = nsum r (fun a => nsum r (fun b => elt x [a; b] *! double p (idents p) i j a b)).
  Proof.
    induction p as [|t p IH] using rev_ind; intros q l r x C Sx.
    - cbn [chain] in C. subst r. exists x. split; [reflexivity|]. split; [exact Sx|]. intros i j Hi Hj. cbn [idents map].
      transitivity (nsum l (fun a => elt x [a; j] *! (if a =? i then r1 else r0))).
      + symmetry. apply (nsum_delta_r (fun a => elt x [a; j]) Hi).
      + apply nsum_ext. intros a Ha. symmetry. transitivity (nsum l (fun b => (elt x [a; b] *! (if a =? i then r1 else r0)) *! (if b =? j then r1 else r0))).
        * apply nsum_ext. intros b Hb. rewrite double_nil, (Nat.eqb_sym i a), (Nat.eqb_sym j b). ring.
        * apply (nsum_delta_r (fun b => elt x [a; b] *! (if a =? i then r1 else r0)) Hj).
    - apply chain_app in C. destruct C as (m & C1 & (d & k & St & C2)). cbn [chain] in C2. subst k.
      rewrite app_length, Nat.add_1_r. rewrite seq_S, rev_app_distr. cbn [rev app over]. unfold apply_transfer_operator.
      rewrite <- app_assoc. cbn [app]. rewrite get_mid. cbn [rbind].
      destruct (@ncon_right_transfer R iter iter_perm t x (conj_t t) m d r m r) as (y & Ey & Sy & Vy); [exact St | exact Sx | exact St |].
      rewrite Ey. cbn [rbind]. destruct (IH (t :: q) l m y C1 Sy) as (z & Ez & Sz & Vz).
      exists z. split; [exact Ez|]. split; [exact Sz|].
      intros i j Hi Hj. rewrite (Vz i j Hi Hj).
      transitivity (nsum r (fun a => nsum r (fun b => nsum m (fun f => nsum m (fun f' => elt x [a; b] *! (double p (idents p) i j f f' *! tstep ident t f f' a b)))))).
      + transitivity (nsum m (fun f => nsum m (fun f' => nsum r (fun a => nsum r (fun b => elt x [a; b] *! (double p (idents p) i j f f' *! tstep ident t f f' a b)))))).
        * apply nsum_ext. intros f Hf. apply nsum_ext. intros f' Hf'. rewrite (Vy f f' Hf Hf').
          rewrite <- nsum_mul_r. apply nsum_ext. intros a Ha.
          transitivity (nsum r (fun b => nsum d (fun s => elt x [a; b] *! (elt t [f; s; a] *! cj (elt t [f'; s; b])))) *! double p (idents p) i j f f').
          { rewrite (nsum_swap d r). reflexivity. }
          rewrite <- nsum_mul_r. apply nsum_ext. intros b Hb. rewrite (tstep_ident f f' a b St), nsum_mul_l. ring.
        * unfold nsum. symmetry. apply (@lsum_swap22 R).
      + apply nsum_ext. intros a Ha. apply nsum_ext. intros b Hb. rewrite idents_app.
        rewrite (@double_app R p [t] (idents p) (idents [t]) l m i j a b C1 Hi Hj (idents_length p)).
        rewrite <- nsum_mul_l. apply nsum_ext. intros f Hf. rewrite <- nsum_mul_l. apply nsum_ext. intros f' Hf'.
        cbn [idents map]. rewrite (double_one ident f f' St Ha Hb). reflexivity.
  Qed.

  Definition dir_eigen (d : dir) (D : nat) (ts : list tensor) (k : R) (x : nat -> nat -> R) : Prop :=
    match d with DLeft => left_eigen D ts k x | DRight => right_eigen D ts k x | DOther => False end.
  Definition dir_map (d : dir) (D : nat) (ts : list tensor) (x : nat -> nat -> R) (i j : nat) : R :=
    match d with
    | DLeft => nsum D (fun a => nsum D (fun b => x a b *! lsum (idxs (phys ts)) (fun sg => amp ts a sg i *! cj (amp ts b sg j))))
    | DRight => nsum D (fun a => nsum D (fun b => x a b *! lsum (idxs (phys ts)) (fun sg => amp ts i sg a *! cj (amp ts j sg b))))
    | DOther => r0
    end.
  Lemma unit_cell_spec d D (ts : list tensor) x : d <> DOther -> chain D ts D -> shape x = [D; D] ->
    exists y, unit_cell_transfer_operator iter ts d x = Ok y /\ shape y = [D; D] /\
      forall i j, i < D -> j < D -> elt y [i; j] = dir_map d D ts (fun a b => elt x [a; b]) i j.
  Proof.
    intros Hd C Sx. unfold unit_cell_transfer_operator. destruct d; [| |congruence].
    - destruct (@over_left ts [] D D x C Sx) as (y & Ey & Sy & Vy). cbn [app length] in Ey. exists y. split; [exact Ey|]. split; [exact Sy|].
      intros i j Hi Hj. rewrite (Vy i j Hi Hj). cbn [dir_map]. apply nsum_ext. intros a Ha. apply nsum_ext. intros b Hb. rewrite double_idents. reflexivity.
    - destruct (@over_right ts [] D D x C Sx) as (y & Ey & Sy & Vy). rewrite app_nil_r in Ey. exists y. split; [exact Ey|]. split; [exact Sy|].
      intros i j Hi Hj. rewrite (Vy i j Hi Hj). cbn [dir_map]. apply nsum_ext. intros a Ha. apply nsum_ext. intros b Hb. rewrite double_idents. reflexivity.
  Qed.
  Lemma dir_eigen_map d D ts k x : d <> DOther -> (forall i j, i < D -> j < D -> dir_map d D ts x i j = k *! x i j) -> dir_eigen d D ts k x.
  Proof. intros Hd H. destruct d; [exact H | exact H | congruence]. Qed.

  Lemma size1 D : (nprod [D * D] =? nprod [D; D]) = true. Proof. apply Nat.eqb_eq. cbn [nprod fold_right]. lia. Qed.
  Lemma size2 D : (nprod [D; D] =? nprod [D * D]) = true. Proof. apply Nat.eqb_eq. cbn [nprod fold_right]. lia. Qed.
  Lemma mv_spec d D (ts : list tensor) v : d <> DOther -> chain D ts D -> shape v = [D * D] ->
    exists y, mv iter ts d D v = Ok y /\ shape y = [D * D] /\
      forall i j, i < D -> j < D -> elt (reshape y [D; D]) [i; j] = dir_map d D ts (fun a b => elt (reshape v [D; D]) [a; b]) i j.
  Proof.
    intros Hd C Sv. unfold mv, reshape_to. rewrite Sv, size1. cbn [guard rbind].
    destruct (@unit_cell_spec d D ts (reshape v [D; D]) Hd C eq_refl) as (y & Ey & Sy & Vy). rewrite Ey. cbn [rbind]. rewrite Sy, size2. cbn [guard]. eexists. split; [reflexivity|]. split; [reflexivity|].
    intros i j Hi Hj. rewrite <- (Vy i j Hi Hj). unfold reshape. cbn [elt shape]. rewrite Sy.
    f_equal. rewrite ravel_unravel; [apply unravel_ravel; apply valid2; assumption|].
    cbn [nprod fold_right]. rewrite Nat.mul_1_r. pose proof (@ravel_lt [D; D] [i; j] (valid2 Hi Hj)) as L.
    cbn [nprod fold_right] in L. lia.
  Qed.

  Hypothesis Heigs : eigs_ok eigs.
  Hypothesis Hrnd : forall n, shape (rnd n) = [n].
  Notation teigs := (transfer_matrix_eigs iter nrm rdiv eigs rnd isz).

  Lemma teigs_spec d D (ts : list tensor) ini eta x : d <> DOther -> chain D ts D -> teigs ts d ini = Ok (eta, x) ->
    shape x = [D; D] /\ exists k, dir_eigen d D ts k (fun i j => elt x [i; j]).
  Proof.
    intros Hd C H. unfold transfer_matrix_eigs in H.
    destruct ts as [|t0 q]; [discriminate|]. cbn [get nth_error rbind] in H.
    assert (nth 0 (shape t0) 0 = D) as ED by (destruct C as (e & k & -> & _); reflexivity). rewrite ED in H.
    destruct (falsy isz ini) as [b| |]; [|discriminate..]. cbn [rbind] in H.
    match type of H with rbind ?i _ = _ => destruct i as [v0| |] eqn:Ei; [|discriminate..] end. cbn [rbind] in H.
    assert (shape v0 = [D * D]) as Sv.
    { destruct b; [injection Ei as <-; apply Hrnd|]. destruct ini as [z|]; [|injection Ei as <-; apply Hrnd].
      unfold reshape_to in Ei. destruct (nprod (shape z) =? _); [|discriminate]. injection Ei as <-. reflexivity. }
    destruct (D =? 1) eqn:E1.
    - apply Nat.eqb_eq in E1. clear ED. subst D. destruct (mv iter (t0 :: q) d 1 _) as [y| |]; [|discriminate..]. cbn [rbind] in H.
      unfold reshape_to in H. destruct (nprod (shape y) =? _); [|discriminate]. cbn [guard rbind] in H. injection H as _ <-. split; [reflexivity|].
      exists (dir_map d 1 (t0 :: q) (fun _ _ => r1) 0 0). apply dir_eigen_map; [exact Hd|]. intros i j Hi Hj.
      assert (i = 0) as -> by lia. assert (j = 0) as -> by lia.
      assert (forall f : nat -> R, nsum 1 f = f 0) as N1 by (intros f; unfold nsum; cbn; ring).
      destruct d; [| |congruence]; cbn [dir_map]; rewrite !N1; ring.
    - destruct (eigs (mv iter (t0 :: q) d D) v0) as [[eta' y]| |] eqn:Eg; [|discriminate..]. cbn [rbind] in H.
      destruct (Heigs Eg) as (Sy & z & k & Ez & Sz & Vz). rewrite Sv in Sy.
      unfold reshape_to in H. rewrite Sy, size1 in H. cbn [guard rbind] in H.
      injection H as _ <-. split; [reflexivity|]. exists k. apply dir_eigen_map; [exact Hd|]. intros i j Hi Hj.
      destruct (@mv_spec d D (t0 :: q) y Hd C Sy) as (z' & Ez' & Sz' & Vz'). assert (z' = z) as -> by congruence.
      rewrite <- (Vz' i j Hi Hj). unfold reshape. cbn [elt]. rewrite Sz', Sy. apply Vz. rewrite Sy. apply unravel_valid.
      pose proof (@ravel_lt [D; D] [i; j] (valid2 Hi Hj)) as L. cbn [nprod fold_right] in L |- *. lia.
  Qed.
End Facts.

(** * MpsDouble: transfer matrices; the value of a chain with its conjugate is their product *)
From Coq Require Import List ZArith Lia.
From Verif Require Import Prelude Res Algebra Tensor TensorFacts ListFacts MpsSpec MpsState MpsMeasureSpec.
Import ListNotations.
Set Implicit Arguments.
Unset Strict Implicit.
Local Open Scope nat_scope.
Local Open Scope csr_scope.

Section Sums.
  Context {R : csr}.
  Add Ring Rring : (rsr R).
  Lemma lsum_to A (g : A -> R) (l : list A) f : (forall x, In x l -> f x = g x) -> lsum l f = lsum l g.
  Proof. apply lsum_ext. Qed.
  Lemma nsum_to (g : nat -> R) n f : (forall x, x < n -> f x = g x) -> nsum n f = nsum n g.
  Proof. apply nsum_ext. Qed.
  Lemma lsum_pair A B (l : list A) (m : list B) (f : A -> B -> R) :
    lsum l (fun x => lsum m (f x)) = lsum (list_prod l m) (fun p => f (fst p) (snd p)).
  Proof.
    induction l as [|x l IH]; [reflexivity|]. cbn [list_prod]. rewrite lsum_cons, lsum_app, lsum_map, IH. reflexivity.
  Qed.
  Lemma lsum_swap12 A B C (l : list A) (m : list B) (n : list C) (f : A -> B -> C -> R) :
    lsum l (fun x => lsum m (fun y => lsum n (fun z => f x y z))) = lsum m (fun y => lsum n (fun z => lsum l (fun x => f x y z))).
  Proof. rewrite lsum_swap. apply lsum_ext. intros y _. apply lsum_swap. Qed.
  Lemma lsum_swap22 A B C D (l : list A) (m : list B) (n : list C) (o : list D) (f : A -> B -> C -> D -> R) :
    lsum l (fun x => lsum m (fun y => lsum n (fun z => lsum o (fun w => f x y z w)))) =
    lsum n (fun z => lsum o (fun w => lsum l (fun x => lsum m (fun y => f x y z w)))).
  Proof.
    rewrite (@lsum_to _ (fun x => lsum n (fun z => lsum o (fun w => lsum m (fun y => f x y z w))))).
    - apply lsum_swap12.
    - intros x _. apply lsum_swap12.
  Qed.
End Sums.

Section Double.
  Context {R : cjr}.
  Add Ring Rring2 : (rsr R).
  Notation tensor := (Tensor.tensor R).
  Notation op := (nat -> nat -> R).

  Definition tstep (o : op) (t : tensor) (c c' f f' : nat) : R :=
    nsum (nth 1 (shape t) 0) (fun u => nsum (nth 1 (shape t) 0) (fun v => o v u *! (elt t [c; u; f] *! cj (elt t [c'; v; f'])))).

  Lemma double_nil c c' e e' : double (R := R) [] [] c c' e e' = (if c =? e then r1 else r0) *! (if c' =? e' then r1 else r0).
  Proof.
    unfold double. cbn [phys map idxs]. rewrite !lsum_cons, !lsum_nil. cbn [prodop amp].
    destruct (c' =? e'); rewrite ?cj_1, ?cj_0; ring.
  Qed.

  Lemma double_cons (t : tensor) ts o os l d k c c' e e' : shape t = [l; d; k] ->
    double (t :: ts) (o :: os) c c' e e' = nsum k (fun f => nsum k (fun f' => tstep o t c c' f f' *! double ts os f f' e e')).
  Proof.
    intros S. unfold double. cbn [phys map]. rewrite S. cbn [nth]. fold (phys ts). set (D := phys ts).
    set (X := fun u v sg ta f f' => o v u *! (elt t [c; u; f] *! cj (elt t [c'; v; f'])) *! (prodop os ta sg *! (amp ts f sg e *! cj (amp ts f' ta e')))).
    transitivity (lsum (seq 0 d) (fun u => lsum (seq 0 d) (fun v => lsum (idxs D) (fun sg => lsum (idxs D) (fun ta =>
      lsum (seq 0 k) (fun f => lsum (seq 0 k) (fun f' => X u v sg ta f f'))))))).
    - rewrite lsum_idxs_cons. unfold nsum. apply lsum_ext. intros u _.
      rewrite (lsum_swap (seq 0 d) (idxs D)). apply lsum_ext. intros sg _. rewrite lsum_idxs_cons. unfold nsum. apply lsum_ext. intros v _.
      apply lsum_ext. intros ta _. cbn [prodop amp]. rewrite S. cbn [nth]. unfold nsum. rewrite cj_lsum.
      rewrite <- !lsum_mul_r, <- !lsum_mul_l. apply lsum_ext. intros f _. rewrite <- !lsum_mul_l. apply lsum_ext. intros f' _.
      unfold X. rewrite cj_mul. ring.
    - transitivity (lsum (seq 0 d) (fun u => lsum (seq 0 d) (fun v => lsum (seq 0 k) (fun f => lsum (seq 0 k) (fun f' =>
        lsum (idxs D) (fun sg => lsum (idxs D) (fun ta => X u v sg ta f f'))))))).
      + apply lsum_ext. intros u _. apply lsum_ext. intros v _. apply lsum_swap22.
      + rewrite lsum_swap22. unfold nsum. apply lsum_ext. intros f _. apply lsum_ext. intros f' _.
        unfold tstep. rewrite S. cbn [nth]. unfold nsum. rewrite <- lsum_mul_r. apply lsum_ext. intros u _.
        rewrite <- lsum_mul_r. apply lsum_ext. intros v _. rewrite <- lsum_mul_l. apply lsum_ext. intros sg _.
        rewrite <- lsum_mul_l. reflexivity.
  Qed.

  Lemma double_app (x y : list tensor) : forall os1 os2 l m c c' e e', chain l x m -> c < l -> c' < l -> length os1 = length x ->
    double (x ++ y) (os1 ++ os2) c c' e e' = nsum m (fun g => nsum m (fun g' => double x os1 c c' g g' *! double y os2 g g' e e')).
  Proof.
    induction x as [|t x IH]; intros os1 os2 l m c c' e e' C Hc Hc' L.
    - destruct os1; [|discriminate]. cbn in C. subst m. cbn [app]. symmetry.
      transitivity (nsum l (fun g => (if c =? g then r1 else r0) *! nsum l (fun g' => (if c' =? g' then r1 else r0) *! double y os2 g g' e e'))).
      + apply nsum_ext. intros g _. rewrite <- nsum_mul_l. apply nsum_ext. intros g' _. rewrite double_nil. ring.
      + rewrite (nsum_delta_l (fun g => nsum l (fun g' => (if c' =? g' then r1 else r0) *! double y os2 g g' e e')) Hc).
        apply (nsum_delta_l (fun g' => double y os2 c g' e e') Hc').
    - destruct os1 as [|o os1]; [discriminate|]. destruct C as (d & k & S & C). cbn [app]. rewrite (double_cons _ _ _ _ _ _ _ S).
      transitivity (nsum k (fun f => nsum k (fun f' => nsum m (fun g => nsum m (fun g' =>
        tstep o t c c' f f' *! double x os1 f f' g g' *! double y os2 g g' e e'))))).
      + apply nsum_ext. intros f Hf. apply nsum_ext. intros f' Hf'. rewrite (IH os1 os2 k m f f' e e' C Hf Hf') by (cbn in L; lia).
        rewrite <- nsum_mul_l. apply nsum_ext. intros g _. rewrite <- nsum_mul_l. apply nsum_ext. intros g' _. ring.
      + unfold nsum. rewrite lsum_swap22. apply lsum_ext. intros g _. apply lsum_ext. intros g' _. rewrite (double_cons _ _ _ _ _ _ _ S).
        unfold nsum. rewrite <- lsum_mul_r. apply lsum_ext. intros f _. rewrite <- lsum_mul_r. reflexivity.
  Qed.

  Lemma double_one (t : tensor) o l d k c c' f f' : shape t = [l; d; k] -> f < k -> f' < k -> double [t] [o] c c' f f' = tstep o t c c' f f'.
  Proof.
    intros S Hf Hf'. rewrite (double_cons _ _ _ _ _ _ _ S).
    transitivity (nsum k (fun g => nsum k (fun g' => tstep o t c c' g g' *! (if g' =? f' then r1 else r0)) *! (if g =? f then r1 else r0))).
    - apply nsum_ext. intros g _. rewrite <- nsum_mul_r. apply nsum_ext. intros g' _. rewrite double_nil. ring.
    - rewrite (nsum_delta_r (fun g => nsum k (fun g' => tstep o t c c' g g' *! (if g' =? f' then r1 else r0))) Hf).
      apply (nsum_delta_r (fun g' => tstep o t c c' f g') Hf').
  Qed.

  (** ** environments with operators *)
  Definition eleft l (p : list tensor) os (f f' : nat) : R := nsum l (fun a => double p os a a f f').
  Definition eright r (q : list tensor) os (f f' : nat) : R := nsum r (fun b => double q os f f' b b).

  Lemma eleft_nil l f f' : f < l -> eleft l [] [] f f' = if f =? f' then r1 else r0.
  Proof.
    intros Hf. unfold eleft. rewrite (@nsum_to R (fun a => (if f =? a then r1 else r0) *! (if a =? f' then r1 else r0))).
    - apply (nsum_delta_l (fun a => if a =? f' then r1 else r0) Hf).
    - intros a _. rewrite double_nil, (Nat.eqb_sym a f). reflexivity.
  Qed.
  Lemma eright_nil l f f' : f < l -> eright l [] [] f f' = if f =? f' then r1 else r0.
  Proof.
    intros Hf. unfold eright. rewrite (@nsum_to R (fun a => (if f =? a then r1 else r0) *! (if f' =? a then r1 else r0))).
    - rewrite (nsum_delta_l (fun a => if f' =? a then r1 else r0) Hf). rewrite Nat.eqb_sym. reflexivity.
    - intros a _. rewrite double_nil. reflexivity.
  Qed.
  Lemma eleft_snoc l p os (t : tensor) o m d k f f' : chain l p m -> length os = length p -> shape t = [m; d; k] -> f < k -> f' < k ->
    eleft l (p ++ [t]) (os ++ [o]) f f' = nsum m (fun c => nsum m (fun c' => eleft l p os c c' *! tstep o t c c' f f')).
  Proof.
    intros C L S Hf Hf'. unfold eleft.
    transitivity (nsum l (fun a => nsum m (fun c => nsum m (fun c' => double p os a a c c' *! tstep o t c c' f f')))).
    - apply nsum_ext. intros a Ha. rewrite (double_app [t] [o] f f' C Ha Ha L). apply nsum_ext. intros c _. apply nsum_ext. intros c' _.
      rewrite (double_one o c c' S Hf Hf'). reflexivity.
    - unfold nsum. rewrite lsum_swap12. apply lsum_ext. intros c _. apply lsum_ext. intros c' _. rewrite <- lsum_mul_r. reflexivity.
  Qed.
  Lemma eright_cons r q os (t : tensor) o l d k c c' : shape t = [l; d; k] ->
    eright r (t :: q) (o :: os) c c' = nsum k (fun f => nsum k (fun f' => tstep o t c c' f f' *! eright r q os f f')).
  Proof.
    intros S. unfold eright.
    transitivity (nsum r (fun b => nsum k (fun f => nsum k (fun f' => tstep o t c c' f f' *! double q os f f' b b)))).
    - apply nsum_ext. intros b _. exact (double_cons _ _ _ _ _ _ _ S).
    - unfold nsum. rewrite lsum_swap12. apply lsum_ext. intros f _. apply lsum_ext. intros f' _. rewrite <- lsum_mul_l. reflexivity.
  Qed.
  Lemma expectation_split l r p q os1 os2 m : chain l p m -> length os1 = length p ->
    expectation l r (p ++ q) (os1 ++ os2) = nsum m (fun c => nsum m (fun c' => eleft l p os1 c c' *! eright r q os2 c c')).
  Proof.
    intros C L. unfold expectation.
    transitivity (nsum l (fun a => nsum r (fun b => nsum m (fun c => nsum m (fun c' => double p os1 a a c c' *! double q os2 c c' b b))))).
    - apply nsum_ext. intros a Ha. apply nsum_ext. intros b _. exact (double_app q os2 b b C Ha Ha L).
    - unfold nsum. rewrite lsum_swap22. apply lsum_ext. intros c _. apply lsum_ext. intros c' _. unfold eleft, eright, nsum.
      rewrite <- lsum_mul_r. apply lsum_ext. intros a _. rewrite <- lsum_mul_l. reflexivity.
  Qed.

  (** ** without operators *)
  Lemma prodop_ident D : forall ta sg, valid ta D -> valid sg D -> prodop (R := R) (map (fun _ => ident) D) ta sg = if list_eq_dec Nat.eq_dec sg ta then r1 else r0.
  Proof.
    induction D as [|d D IH]; intros ta sg V1 V2; inversion V1; inversion V2; subst; [reflexivity|]. cbn [map prodop].
    match goal with |- context [prodop _ ?x ?y] => rewrite (IH x y) by assumption end. unfold ident.
    match goal with |- (if ?x =? ?y then _ else _) *! _ = _ => destruct (Nat.eqb_spec x y) as [->|N] end.
    - destruct (list_eq_dec Nat.eq_dec l0 l) as [->|N]; destruct (list_eq_dec _ _ _) as [E'|N']; try ring.
      + contradiction N'; reflexivity.
      + injection E' as ->. contradiction N; reflexivity.
    - destruct (list_eq_dec _ (_ :: _) _) as [E'|N']; [injection E' as -> ->; contradiction N; reflexivity | ring].
  Qed.
  Definition idents (ts : list tensor) : list op := map (fun _ => ident) ts.
  Lemma double_idents ts c c' e e' : double ts (idents ts) c c' e e' = lsum (idxs (phys ts)) (fun sg => amp ts c sg e *! cj (amp ts c' sg e')).
  Proof.
    unfold double. apply lsum_ext. intros sg Hs.
    assert (idents ts = map (fun _ => ident) (phys ts)) as -> by (unfold idents, phys; rewrite map_map; reflexivity).
    rewrite (@lsum_single R _ _ _ sg).
    - apply In_idxs in Hs. rewrite (prodop_ident Hs Hs). destruct (list_eq_dec Nat.eq_dec sg sg) as [_|N]; [ring | contradiction N; reflexivity].
    - apply NoDup_idxs.
    - exact Hs.
    - intros ta Ht N. apply In_idxs in Hs, Ht. rewrite (prodop_ident Ht Hs). destruct (list_eq_dec Nat.eq_dec sg ta) as [->|_]; [contradiction N; reflexivity | ring].
  Qed.
  Lemma eleft_idents l ts f f' : eleft l ts (idents ts) f f' = left_part l ts f f'.
  Proof. unfold eleft, left_part. apply nsum_ext. intros a _. apply double_idents. Qed.
  Lemma eright_idents r ts f f' : eright r ts (idents ts) f f' = right_part r ts f f'.
  Proof. unfold eright, right_part. apply nsum_ext. intros a _. apply double_idents. Qed.
  Lemma idents_app x y : idents (x ++ y) = idents x ++ idents y. Proof. apply map_app. Qed.
  Lemma idents_length x : length (idents x) = length x. Proof. apply map_length. Qed.

  Lemma tstep_ident (t : tensor) l d k c c' f f' : shape t = [l; d; k] ->
    tstep ident t c c' f f' = nsum d (fun u => elt t [c; u; f] *! cj (elt t [c'; u; f'])).
  Proof.
    intros S. unfold tstep. rewrite S. cbn [nth]. apply nsum_ext. intros u Hu.
    rewrite (@nsum_to R (fun v => (if u =? v then r1 else r0) *! (elt t [c; u; f] *! cj (elt t [c'; v; f'])))).
    - apply (nsum_delta_l (fun v => elt t [c; u; f] *! cj (elt t [c'; v; f'])) Hu).
    - intros v _. unfold ident. rewrite Nat.eqb_sym. reflexivity.
  Qed.

  Lemma left_part_snoc l p (t : tensor) m d k f f' : chain l p m -> shape t = [m; d; k] -> f < k -> f' < k ->
    left_part l (p ++ [t]) f f' = nsum m (fun c => nsum m (fun c' => left_part l p c c' *! tstep ident t c c' f f')).
  Proof.
    intros C S Hf Hf'. rewrite <- eleft_idents, idents_app. cbn [idents map].
    rewrite (eleft_snoc ident C (idents_length p) S Hf Hf'). apply nsum_ext. intros c _. apply nsum_ext. intros c' _. rewrite eleft_idents. reflexivity.
  Qed.
  Lemma right_part_cons r q (t : tensor) l d k c c' : shape t = [l; d; k] ->
    right_part r (t :: q) c c' = nsum k (fun f => nsum k (fun f' => tstep ident t c c' f f' *! right_part r q f f')).
  Proof.
    intros S. rewrite <- eright_idents. cbn [idents map]. rewrite (eright_cons _ _ _ _ _ _ S).
    apply nsum_ext. intros f _. apply nsum_ext. intros f' _. fold (idents q). rewrite eright_idents. reflexivity.
  Qed.

  (** isometries *)
  Lemma left_part_iso l : forall (p : list tensor) m, chain l p m -> (forall t, In t p -> left_iso t) -> forall f f', f < m -> f' < m -> left_part l p f f' = if f =? f' then r1 else r0.
  Proof.
    induction p as [|t p IH] using rev_ind; intros m C I f f' Hf Hf'.
    - cbn in C. subst m. rewrite <- eleft_idents. apply eleft_nil. exact Hf.
    - apply chain_app in C. destruct C as (k & C & (d & k' & S & E)). cbn in E. subst k'. rewrite (left_part_snoc C S Hf Hf').
      pose proof (I t ltac:(apply in_or_app; right; left; reflexivity) f f') as It. rewrite S in It. cbn [nth] in It. rewrite <- (It Hf Hf').
      apply nsum_ext. intros c Hc. rewrite (@nsum_to R (fun c' => (if c =? c' then r1 else r0) *! tstep ident t c c' f f')).
      + rewrite (nsum_delta_l (fun c' => tstep ident t c c' f f') Hc). rewrite (tstep_ident _ _ _ _ S). reflexivity.
      + intros c' Hc'. rewrite (IH k C) by (try assumption; intros u Hu; apply I; apply in_or_app; left; exact Hu). reflexivity.
  Qed.
  Lemma right_part_iso r : forall (q : list tensor) l, chain l q r -> (forall t, In t q -> right_iso t) -> forall c c', c < l -> c' < l -> right_part r q c c' = if c =? c' then r1 else r0.
  Proof.
    induction q as [|t q IH]; intros l C I c c' Hc Hc'.
    - cbn in C. subst l. rewrite <- eright_idents. apply eright_nil. exact Hc.
    - destruct C as (d & k & S & C). rewrite (right_part_cons _ _ _ _ S).
      pose proof (I t ltac:(left; reflexivity) c c') as It. rewrite S in It. cbn [nth] in It. rewrite <- (It Hc Hc').
      transitivity (nsum k (fun f => tstep ident t c c' f f)).
      + apply nsum_ext. intros f Hf. rewrite (@nsum_to R (fun f' => (if f =? f' then r1 else r0) *! tstep ident t c c' f f')).
        * apply (nsum_delta_l (fun f' => tstep ident t c c' f f') Hf).
        * intros f' Hf'. rewrite (IH k C) by (try assumption; intros u Hu; apply I; right; exact Hu). ring.
      + rewrite nsum_swap. apply nsum_ext. intros f Hf. apply (tstep_ident _ _ _ _ S).
  Qed.
End Double.

(** * Algebra: the scalars.

    Every tensor theorem is stated for an arbitrary commutative semiring (Leibniz
    equality), so it holds in particular for Z, Q and Gaussian rationals.  Floating point
    rounding is not modelled (DESIGN.md, trusted base). *)
From Coq Require Import ZArith Ring.
From Verif Require Import Prelude.
Set Implicit Arguments.

(** A commutative semiring (used as explicit universally quantified data, never as an axiom). *)
Record csr := CSR {
  car :> Type;
  r0 : car;
  r1 : car;
  radd : car -> car -> car;
  rmul : car -> car -> car;
  rsr : semi_ring_theory r0 r1 radd rmul (@eq car)
}.
Arguments r0 {c}.
Arguments r1 {c}.
Arguments radd {c}.
Arguments rmul {c}.

Declare Scope csr_scope.
Delimit Scope csr_scope with R.
Notation "x +! y" := (radd x y) (at level 50, left associativity) : csr_scope.
Notation "x *! y" := (rmul x y) (at level 40, left associativity) : csr_scope.
Open Scope csr_scope.

(** A commutative semiring with an involutive automorphism ([numpy.conj]). *)
Record cjr := CJR {
  cbase :> csr;
  cj : cbase -> cbase;
  cj_add : forall x y, cj (x +! y) = cj x +! cj y;
  cj_mul : forall x y, cj (x *! y) = cj x *! cj y;
  cj_0 : cj r0 = r0;
  cj_1 : cj r1 = r1;
  cj_inv : forall x, cj (cj x) = x
}.
Arguments cj {c}.

Section Sums.
  Context {R : csr}.
  Add Ring Rring : (rsr R).

  Definition lsum {A} (l : list A) (f : A -> R) : R := fold_right (fun x acc => f x +! acc) r0 l.
  Definition lprod {A} (l : list A) (f : A -> R) : R := fold_right (fun x acc => f x *! acc) r1 l.
  (** sum over 0 <= i < n *)
  Definition nsum (n : nat) (f : nat -> R) : R := lsum (seq 0 n) f.

  Lemma lsum_cons A x (l : list A) f : lsum (x :: l) f = f x +! lsum l f.
  Proof. reflexivity. Qed.
  Lemma lsum_nil A f : lsum (@nil A) f = r0.
  Proof. reflexivity. Qed.

  Lemma lsum_ext A (l : list A) f g : (forall x, In x l -> f x = g x) -> lsum l f = lsum l g.
  Proof.
    induction l as [|x r IH]; intros H; [reflexivity|].
    rewrite !lsum_cons, (H x), IH; auto using in_eq. intros; apply H; right; assumption.
  Qed.

  Lemma lsum_zero A (l : list A) f : (forall x, In x l -> f x = r0) -> lsum l f = r0.
  Proof.
    induction l as [|x r IH]; intros H; [reflexivity|].
    rewrite lsum_cons, (H x), IH; auto using in_eq; [ring|]. intros; apply H; right; assumption.
  Qed.

  Lemma lsum_app A (l1 l2 : list A) f : lsum (l1 ++ l2) f = lsum l1 f +! lsum l2 f.
  Proof.
    induction l1 as [|x r IH]; cbn [app]; [|rewrite !lsum_cons, IH].
    - rewrite lsum_nil. ring.
    - ring.
  Qed.

  Lemma lsum_add A (l : list A) f g : lsum l (fun x => f x +! g x) = lsum l f +! lsum l g.
  Proof.
    induction l as [|x r IH]; [rewrite !lsum_nil; ring|]. rewrite !lsum_cons, IH. ring.
  Qed.

  Lemma lsum_mul_l A (l : list A) c f : lsum l (fun x => c *! f x) = c *! lsum l f.
  Proof.
    induction l as [|x r IH]; [rewrite !lsum_nil; ring|]. rewrite !lsum_cons, IH. ring.
  Qed.

  Lemma lsum_mul_r A (l : list A) c f : lsum l (fun x => f x *! c) = lsum l f *! c.
  Proof.
    induction l as [|x r IH]; [rewrite !lsum_nil; ring|]. rewrite !lsum_cons, IH. ring.
  Qed.

  Lemma lsum_map A B (g : A -> B) l f : lsum (map g l) f = lsum l (fun x => f (g x)).
  Proof.
    induction l as [|x r IH]; [reflexivity|]. cbn [map]. rewrite !lsum_cons, IH. reflexivity.
  Qed.

  Lemma lsum_flat_map A B (g : A -> list B) l f : lsum (flat_map g l) f = lsum l (fun x => lsum (g x) f).
  Proof.
    induction l as [|x r IH]; [reflexivity|]. cbn [flat_map]. rewrite lsum_app, lsum_cons, IH. reflexivity.
  Qed.

  Lemma lsum_swap A B (l : list A) (m : list B) f :
    lsum l (fun x => lsum m (fun y => f x y)) = lsum m (fun y => lsum l (fun x => f x y)).
  Proof.
    induction l as [|x r IH].
    - rewrite lsum_nil. symmetry. apply lsum_zero. reflexivity.
    - rewrite lsum_cons, IH, <- lsum_add. apply lsum_ext. intros. reflexivity.
  Qed.

  Lemma lsum_perm A (l1 l2 : list A) f : Permutation l1 l2 -> lsum l1 f = lsum l2 f.
  Proof.
    induction 1 as [|x l l' H IH|x y l|l l' l'' H1 IH1 H2 IH2]; try rewrite !lsum_cons;
      [reflexivity | rewrite IH; reflexivity | ring | congruence].
  Qed.

  Lemma lsum_filter A (p : A -> bool) l f :
    lsum (filter p l) f = lsum l (fun x => if p x then f x else r0).
  Proof.
    induction l as [|x r IH]; [reflexivity|]. cbn [filter]. rewrite lsum_cons.
    destruct (p x); [rewrite lsum_cons, IH; reflexivity| rewrite IH; ring].
  Qed.

  (** sums with a single surviving term *)
  Lemma lsum_single A (l : list A) f a :
    NoDup l -> In a l -> (forall x, In x l -> x <> a -> f x = r0) -> lsum l f = f a.
  Proof.
    induction l as [|x r IH]; intros HN Ha H; [contradiction|].
    inversion HN as [|? ? Hx Hr]; subst. rewrite lsum_cons. destruct Ha as [->|Ha].
    - rewrite (lsum_zero r); [ring|]. intros y Hy. apply H; [right; exact Hy|].
      intros ->. contradiction.
    - rewrite IH; auto.
      + rewrite (H x); [ring | left; reflexivity|]. intros ->. contradiction.
      + intros; apply H; auto using in_cons.
  Qed.

  Lemma lsum_mul A B (l : list A) (m : list B) f g :
    lsum l f *! lsum m g = lsum l (fun x => lsum m (fun y => f x *! g y)).
  Proof.
    rewrite <- lsum_mul_r. apply lsum_ext. intros. rewrite lsum_mul_l. reflexivity.
  Qed.

  Lemma nsum_ext n f g : (forall i, i < n -> f i = g i) -> nsum n f = nsum n g.
  Proof. intros H. apply lsum_ext. intros i Hi. apply in_seq in Hi. apply H. lia. Qed.

  Lemma nsum_S n f : nsum (S n) f = nsum n f +! f n.
  Proof.
    unfold nsum. rewrite seq_S, lsum_app, lsum_cons, lsum_nil. simpl. ring.
  Qed.

  Lemma nsum_single n f k : k < n -> (forall i, i < n -> i <> k -> f i = r0) -> nsum n f = f k.
  Proof.
    intros Hk H. apply lsum_single; [apply seq_NoDup | apply in_seq; lia |].
    intros x Hx Hne. apply in_seq in Hx. apply H; lia.
  Qed.

  Lemma nsum_zero n f : (forall i, i < n -> f i = r0) -> nsum n f = r0.
  Proof. intros H. apply lsum_zero. intros i Hi. apply in_seq in Hi. apply H. lia. Qed.

  Lemma nsum_mul_l n c f : nsum n (fun x => c *! f x) = c *! nsum n f.
  Proof. apply lsum_mul_l. Qed.
  Lemma nsum_mul_r n c f : nsum n (fun x => f x *! c) = nsum n f *! c.
  Proof. apply lsum_mul_r. Qed.
  Lemma nsum_add n f g : nsum n (fun x => f x +! g x) = nsum n f +! nsum n g.
  Proof. apply lsum_add. Qed.
  Lemma nsum_swap n m f : nsum n (fun x => nsum m (fun y => f x y)) = nsum m (fun y => nsum n (fun x => f x y)).
  Proof. apply lsum_swap. Qed.

  (** products *)
  Lemma lprod_cons A x (l : list A) f : lprod (x :: l) f = f x *! lprod l f.
  Proof. reflexivity. Qed.
  Lemma lprod_nil A f : lprod (@nil A) f = r1.
  Proof. reflexivity. Qed.
  Lemma lprod_ext A (l : list A) f g : (forall x, In x l -> f x = g x) -> lprod l f = lprod l g.
  Proof.
    induction l as [|x r IH]; intros H; [reflexivity|].
    rewrite !lprod_cons, (H x), IH; auto using in_eq. intros; apply H; right; assumption.
  Qed.
  Lemma lprod_app A (l1 l2 : list A) f : lprod (l1 ++ l2) f = lprod l1 f *! lprod l2 f.
  Proof.
    induction l1 as [|x r IH]; cbn [app]; [|rewrite !lprod_cons, IH].
    - rewrite lprod_nil. ring.
    - ring.
  Qed.
  Lemma lprod_perm A (l1 l2 : list A) f : Permutation l1 l2 -> lprod l1 f = lprod l2 f.
  Proof.
    induction 1 as [|x l l' H IH|x y l|l l' l'' H1 IH1 H2 IH2]; try rewrite !lprod_cons;
      [reflexivity | rewrite IH; reflexivity | ring | congruence].
  Qed.
  Lemma lprod_map A B (g : A -> B) l f : lprod (map g l) f = lprod l (fun x => f (g x)).
  Proof.
    induction l as [|x r IH]; [reflexivity|]. cbn [map]. rewrite !lprod_cons, IH. reflexivity.
  Qed.
End Sums.
Arguments lsum {R A}.
Arguments lprod {R A}.
Arguments nsum {R}.

Section ConjSums.
  Context {R : cjr}.
  Lemma cj_lsum A (l : list A) (f : A -> R) : cj (lsum l f) = lsum l (fun x => cj (f x)).
  Proof.
    induction l as [|x r IH]; [apply cj_0|]. rewrite !lsum_cons, cj_add, IH. reflexivity.
  Qed.
  Lemma cj_nsum n (f : nat -> R) : cj (nsum n f) = nsum n (fun x => cj (f x)).
  Proof. apply cj_lsum. Qed.
End ConjSums.

(** ** Instances *)
Definition Z_csr : csr.
Proof.
  refine (@CSR Z 0%Z 1%Z Z.add Z.mul _).
  constructor; intros; ring.
Defined.

Definition Z_cjr : cjr.
Proof. refine (@CJR Z_csr (fun x => x) _ _ _ _ _); reflexivity. Defined.

(** Gaussian integers: a non-trivial conjugation. *)
Definition gadd (x y : Z * Z) : Z * Z := ((fst x + fst y)%Z, (snd x + snd y)%Z).
Definition gmul (x y : Z * Z) : Z * Z :=
  ((fst x * fst y - snd x * snd y)%Z, (fst x * snd y + snd x * fst y)%Z).
Definition G_csr : csr.
Proof.
  refine (@CSR (Z * Z) (0, 0)%Z (1, 0)%Z gadd gmul _).
  constructor; intros; repeat match goal with x : (Z * Z)%type |- _ => destruct x end;
    unfold gadd, gmul; cbn [fst snd]; f_equal; ring.
Defined.
Definition G_cjr : cjr.
Proof.
  refine (@CJR G_csr (fun x => (fst x, (- snd x)%Z)) _ _ _ _ _); cbn; intros;
    repeat match goal with x : (Z * Z)%type |- _ => destruct x end; unfold gadd, gmul; cbn [fst snd]; f_equal; ring.
Defined.

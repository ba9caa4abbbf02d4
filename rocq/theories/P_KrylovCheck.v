(** * C73: the checks of the arguments of the Krylov functions *)
From Coq Require Import String.
From Verif Require Import Prelude SwitchBackend KrylovCheck.
Set Implicit Arguments.
Unset Strict Implicit.
Open Scope string_scope.
Open Scope list_scope.

(** an object is a Tensor with this array *)
Definition has_array A (x : obj A) (a : A) : Prop := exists b, x = Tens b a.

Lemma arrays_of_ok A (l : list (obj A)) s : arrays_of l = inl s <-> Forall2 (@has_array A) l s.
Proof.
  revert s. induction l as [|x l IH]; intros s; cbn.
  - split; intros H; [injection H as <-; constructor | inversion H; reflexivity].
  - destruct x as [b a|]; cbn.
    + destruct (arrays_of l) as [s'|e]; cbn.
      * split; intros H; [injection H as <-; constructor; [exists b; reflexivity | apply IH; reflexivity]|].
        inversion H as [|? ? ? ? (b' & E) H']; subst. injection E as <- <-. apply IH in H'. injection H' as <-. reflexivity.
      * split; [discriminate|]. intros H. inversion H as [|? ? ? ? (b' & E) H']; subst. apply IH in H'. discriminate.
    + split; [discriminate|]. intros H. inversion H as [|? ? ? ? (b' & E) H']; subst. discriminate.
Qed.
Lemma arrays_of_error A (l : list (obj A)) e : arrays_of l = inr e <-> e = AttributeError /\ In Other l.
Proof.
  revert e. induction l as [|x l IH]; intros e; cbn; [split; [discriminate | intros [_ []]]|].
  destruct x as [b a|]; cbn.
  - destruct (arrays_of l) as [s'|e']; cbn.
    + split; [discriminate|]. intros [-> [H|H]]; [discriminate|]. assert (inl s' = @inr (list A) _ AttributeError) by (apply IH; auto). discriminate.
    + split.
      * intros [= ->]. destruct (proj1 (IH e) eq_refl). auto.
      * intros [-> [H|H]]; [discriminate|]. f_equal. assert (inr e' = @inr (list A) _ AttributeError) as E by (apply IH; auto). injection E as ->. reflexivity.
  - split; [intros [= <-]; auto | intros [-> _]; reflexivity].
Qed.
Lemma known_spec b : existsb (String.eqb b) known = true <-> In b known.
Proof. rewrite existsb_exists. split; [intros (c & H & E); apply String.eqb_eq in E as ->; exact H | intros H; exists b; split; [exact H | apply String.eqb_refl]]. Qed.

(** it succeeds exactly when the backend is that of x0 or known, x0 is none or a Tensor of the backend, and all args are Tensors; it
    returns the backend and the arrays *)
Theorem C73_succeeds A backend (x0 : option (obj A)) args b xa sa :
  krylov_error_checks backend x0 args = inl (b, xa, sa) <->
    (backend = Some b /\ In b ["tensorflow"; "numpy"; "jax"; "pytorch"; "symmetric"] \/ backend = None /\ x0 <> None) /\
    match x0 with None => xa = None | Some x => exists a, x = Tens b a /\ xa = Some a end /\
    match args with None => sa = None | Some l => exists s, Forall2 (@has_array A) l s /\ sa = Some s end.
Proof.
  assert (forall b' xa', bind (match args with
          | Some l => bind (to_type_error (arrays_of l)) (fun s => inl (Some s))
          | None => inl None
          end) (fun sa => inl (b', xa', sa)) = inl (b, xa, sa) <-> b' = b /\ xa' = xa /\
    match args with None => sa = None | Some l => exists s, Forall2 (@has_array A) l s /\ sa = Some s end) as K.
  { intros b' xa'. destruct args as [l|]; cbn [bind].
    - pose proof (arrays_of_ok l) as Ho. destruct (arrays_of l) as [s|e]; cbn.
      + split.
        * intros [= -> -> <-]. repeat split. exists s. split; [apply Ho; reflexivity | reflexivity].
        * intros (-> & -> & s' & H & ->). apply Ho in H. injection H as ->. reflexivity.
      + split; [destruct e; discriminate|]. intros (_ & _ & s' & H & _). apply Ho in H. discriminate.
    - split; [intros [= -> -> <-]; auto | intros (-> & -> & ->); reflexivity]. }
  unfold krylov_error_checks. destruct backend as [b0|].
  - unfold get_backend. destruct (existsb (String.eqb b0) known) eqn:Ek; cbn [bind].
    + apply known_spec in Ek. destruct x0 as [[xb a|]|]; cbn [bind to_type_error array_of backend_of].
      * destruct (String.eqb_spec xb b0) as [->|Ne]; cbn [bind].
        -- rewrite K. split.
           ++ intros (-> & <- & H). split; [left; auto|]. split; [exists a; auto | exact H].
           ++ intros ([[E _]|[E _]] & (a' & E' & ->) & Hs); [|discriminate]. injection E as ->. injection E' as ->. auto.
        -- split; [discriminate|]. intros ([[E _]|[E _]] & (a' & E' & _) & _); congruence.
      * split; [discriminate|]. intros (_ & (a' & E & _) & _). discriminate.
      * rewrite K. split; [intros (-> & <- & H); auto|]. intros ([[E _]|[E _]] & -> & Hs); [|discriminate]. injection E as ->. auto.
    + split; [discriminate|]. intros ([[E Hk]|[E _]] & _); [|discriminate]. injection E as ->. apply known_spec in Hk. congruence.
  - destruct x0 as [[xb a|]|]; cbn [bind to_type_error array_of backend_of].
    + rewrite String.eqb_refl. cbn [bind]. rewrite K. split.
      * intros (-> & <- & H). split; [right; split; [reflexivity | discriminate]|]. split; [exists a; auto | exact H].
      * intros (_ & (a' & E & ->) & Hs). injection E as -> ->. auto.
    + split; [discriminate|]. intros (_ & (a' & E & _) & _). discriminate.
    + split; [discriminate|]. intros ([[E _]|[_ E]] & _); congruence.
Qed.
Print Assumptions C73_succeeds.

(** when the backend is given and known and x0 is none or a Tensor of it, something else among the args is a TypeError *)
Theorem C73_args_error A backend (x0 : option (obj A)) l b xa :
  krylov_error_checks backend x0 None = inl (b, xa, None) -> In Other l ->
  krylov_error_checks backend x0 (Some l) = inr TypeError.
Proof.
  intros H Ho. unfold krylov_error_checks in *. destruct (match backend with Some _ => _ | None => _ end) as [b'|]; cbn [bind] in *; [|discriminate].
  destruct (match x0 with Some _ => _ | None => _ end) as [x'|]; cbn [bind] in *; [|discriminate].
  rewrite (proj2 (arrays_of_error l AttributeError)) by auto. reflexivity.
Qed.
Print Assumptions C73_args_error.

(** a known backend that is not that of x0 is a ValueError, as is no backend without x0 and an unknown backend *)
Theorem C73_value_error A (a : A) b xb args x0 : xb <> b ->
  krylov_error_checks (Some b) (Some (Tens xb a)) args = inr ValueError /\
  krylov_error_checks (A := A) None None args = inr ValueError /\
  (~ In b known -> krylov_error_checks (Some b) x0 args = inr ValueError).
Proof.
  intros N. repeat split.
  - unfold krylov_error_checks, get_backend. destruct (existsb (String.eqb b) known); [|reflexivity]. cbn.
    apply String.eqb_neq in N. rewrite N. reflexivity.
  - intros K. unfold krylov_error_checks, get_backend. destruct (existsb (String.eqb b) known) eqn:E; [apply known_spec in E; contradiction | reflexivity].
Qed.
Print Assumptions C73_value_error.

(** something else as x0 with a known backend is a TypeError *)
Theorem C73_x0_error A b (args : option (list (obj A))) : In b known -> krylov_error_checks (Some b) (Some Other) args = inr TypeError.
Proof. intros K. apply known_spec in K. unfold krylov_error_checks, get_backend. rewrite K. reflexivity. Qed.
Print Assumptions C73_x0_error.

Example C73_ex : krylov_error_checks None (Some (Tens "jax" 3)) (Some [Tens "jax" 4; Tens "jax" 5]) = inl ("jax", Some 3, Some [4; 5]) /\
  krylov_error_checks (Some "numpy") (Some (Tens "jax" 3)) None = inr ValueError /\
  krylov_error_checks (Some "numpy") (Some (Tens "numpy" 3)) (Some [Tens "numpy" 4; Other]) = inr TypeError.
Proof. repeat split. Qed.

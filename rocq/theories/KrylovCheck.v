(** * KrylovCheck: model of krylov_error_checks (linalg/krylov.py).
    A backend is its name; an argument is a Tensor with its backend and array, or something else without these attributes. *)
From Coq Require Import String.
From Verif Require Import Prelude SwitchBackend.
Set Implicit Arguments.
Unset Strict Implicit.
Open Scope string_scope.

Section Check.
  Variable A : Type.
  Inductive obj := Tens (backend : string) (array : A) | Other.
  Inductive error := ValueError | TypeError | AttributeError.
  Definition outcome (X : Type) : Type := (X + error)%type.
  Definition bind X Y (x : outcome X) (f : X -> outcome Y) : outcome Y := match x with inl v => f v | inr e => inr e end.
  (** [x.array], [x.backend] *)
  Definition array_of (x : obj) : outcome A := match x with Tens _ a => inl a | Other => inr AttributeError end.
  Definition backend_of (x : obj) : outcome string := match x with Tens b _ => inl b | Other => inr AttributeError end.
  (** [except AttributeError as err: raise TypeError] *)
  Definition to_type_error X (x : outcome X) : outcome X := match x with inr AttributeError => inr TypeError | _ => x end.
  (** backend_factory.py 34-45 [get_backend], by name *)
  Definition get_backend (b : string) : outcome string := if existsb (String.eqb b) known then inl b else inr ValueError.
  (** krylov.py 105 [[a.array for a in args]] *)
  Fixpoint arrays_of (l : list obj) : outcome (list A) :=
    match l with
    | [] => inl []
    | x :: r => bind (array_of x) (fun a => bind (arrays_of r) (fun s => inl (a :: s)))
    end.
  (** krylov.py 55-110 [krylov_error_checks] *)
  Definition krylov_error_checks (backend : option string) (x0 : option obj) (args : option (list obj))
    : outcome (string * option A * option (list A)) :=
    bind (match backend with
          | None => match x0 with None => inr ValueError | Some x => backend_of x end
          | Some b => get_backend b
          end) (fun b =>
    bind (match x0 with
          | Some x => bind (to_type_error (array_of x)) (fun a =>
                      bind (backend_of x) (fun xb => if String.eqb xb b then inl (Some a) else inr ValueError))
          | None => inl None
          end) (fun xa =>
    bind (match args with
          | Some l => bind (to_type_error (arrays_of l)) (fun s => inl (Some s))
          | None => inl None
          end) (fun sa => inl (b, xa, sa)))).
End Check.
Arguments Other {A}.

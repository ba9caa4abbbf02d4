(** * NconSpec: what ncon is documented to accept and to return.

    Written from the docstrings of ncon_interface.py:528-622 only; uses the label type of
    Ncon.v and the Einstein sum of Einsum.v, and none of the functions of the model. *)
From Coq Require Import ZArith String Ascii Sorting.Sorted.
From Verif Require Import Prelude Algebra Tensor Einsum Ncon.
Set Implicit Arguments.
Unset Strict Implicit.
Open Scope list_scope.
Open Scope nat_scope.

(** negative numbers and strings starting with a hyphen are open, the others are closed *)
Inductive Open : label -> Prop :=
| Open_int z : (z < 0)%Z -> Open (LInt z)
| Open_str s : Open (LStr (String "-" s)).

(** lexicographic order of strings by character code *)
Inductive str_le : string -> string -> Prop :=
| str_le_nil s : str_le EmptyString s
| str_le_lt c s d t : nat_of_ascii c < nat_of_ascii d -> str_le (String c s) (String d t)
| str_le_eq c s t : str_le s t -> str_le (String c s) (String c t).

(** default output order: numbers (descending), then strings (ascending) *)
Inductive out_before : label -> label -> Prop :=
| ob_int a b : (b <= a)%Z -> out_before (LInt a) (LInt b)
| ob_mix a s : out_before (LInt a) (LStr s)
| ob_str s t : str_le s t -> out_before (LStr s) (LStr t).

(** [ls] lists the labels of the network satisfying [P], each once *)
Definition lists_labels (P : label -> Prop) (ns : list (list label)) (ls : list label) : Prop :=
  NoDup ls /\ forall l, In l ls <-> In l (List.concat ns) /\ P l.
Definition lists_closed := lists_labels (fun l => ~ Open l).
Definition lists_open := lists_labels Open.

(** the order of the axes of the result *)
Definition out_spec (ns : list (list label)) (out_order : option (list label)) (o : list label) : Prop :=
  lists_open ns o /\
  match out_order with
  | None | Some [] => StronglySorted out_before o
  | Some p => o = p
  end.

(** letters and digits *)
Definition alnum (c : ascii) : Prop :=
  let n := nat_of_ascii c in (48 <= n <= 57) \/ (65 <= n <= 90) \/ (97 <= n <= 122).
Fixpoint chars (s : string) : list ascii :=
  match s with EmptyString => [] | String c r => c :: chars r end.
Definition word (s : string) : Prop := s <> EmptyString /\ Forall alnum (chars s).
Definition label_ok (l : label) : Prop :=
  match l with
  | LInt z => z <> 0%Z
  | LStr s => word s \/ exists r, s = String "-" r /\ word r
  end.

(** axis [k] of tensor [n] carries label [l] and has size [d] *)
Definition axis (ns : list (list label)) (dims : list (list nat)) (l : label) (d : nat) : Prop :=
  exists n k, nth_error (nth n ns []) k = Some l /\ nth_error (nth n dims []) k = Some d.

(** inputs accepted by _check_network *)
Record Valid (ns : list (list label)) (dims : list (list nat)) (con out : option (list label)) : Prop := {
  v_len : List.length ns = List.length dims;
  v_rank : forall n, List.length (nth n ns []) = List.length (nth n dims []);
  v_lab : forall l, In l (List.concat ns) -> label_ok l;
  v_con : forall c, con = Some c -> lists_closed ns c;
  v_out : forall o, out = Some o -> lists_open ns o;
  v_dim : forall l d d', ~ Open l -> axis ns dims l d -> axis ns dims l d' -> d = d' }.

(** every label occurs at most once per tensor, except that a closed label may occur twice on
    one tensor (a trace) when it occurs nowhere else *)
Definition ordinary (ns : list (list label)) : Prop :=
  forall ls l, In ls ns -> In l ls ->
    count_occ label_dec ls l = 1 \/
    (count_occ label_dec ls l = 2 /\ ~ Open l /\ count_occ label_dec (List.concat ns) l = 2).

(** no closed label occurs more than twice, and those occurring once sit on one tensor *)
Definition pairwise (ns : list (list label)) : Prop :=
  (forall l, ~ Open l -> count_occ label_dec (List.concat ns) l <= 2) /\
  (forall ls l l', In ls ns -> In l ls -> ~ Open l -> ~ Open l' ->
     count_occ label_dec (List.concat ns) l = 1 -> count_occ label_dec (List.concat ns) l' = 1 -> In l' ls).

Section Value.
  Context {R : csr}.
  Definition network (ts : list (tensor R)) (ns : list (list label)) : list (Einsum.factor label R) := combine ts ns.
  (** the sizes of the labels are [dim] *)
  Definition sized (dim : label -> nat) (ts : list (tensor R)) (ns : list (list label)) : Prop :=
    List.length ts = List.length ns /\ forall x, In x (network ts ns) -> fits dim x.
  (** [t] is the Einstein sum of the network with axes ordered by [o] *)
  Definition is_value (dim : label -> nat) (ts : list (tensor R)) (ns : list (list label)) (o : list label)
             (t : tensor R) : Prop :=
    shape t = map dim o /\
    forall cl a, lists_closed ns cl -> (forall l, In l o -> a l < dim l) ->
      elt t (map a o) = einsum label_dec dim cl (network ts ns) a.
End Value.

(** * Properties C16-C20: ncon *)
From Coq Require Import ZArith String Sorting.Sorted Permutation.
From Verif Require Import Prelude Algebra Tensor Einsum Ncon NconSpec NconTop NconCheck NconMain NconExamples.
Set Implicit Arguments.
Unset Strict Implicit.
Open Scope list_scope.
Open Scope string_scope.
Open Scope nat_scope.

(** C16: every closed label on exactly two axes, every open one on one: ncon returns, and the
    result is the Einstein sum with its axes in the documented order (NconSpec [is_value]).  [iter]
    is the order in which python iterates over sets of labels. *)
Theorem C16_ncon_einsum (R : csr) (iter : list Z -> list Z) (iter_perm : forall l, Permutation (iter l) l)
    dim check (ts : list (tensor R)) ns con out o :
  sized dim ts ns -> standard ns -> ns <> [] -> (forall l, In l (List.concat ns) -> label_ok l) ->
  con_spec ns con -> out_spec ns out o ->
  exists t, ncon iter check ts ns con out = Ok t /\ is_value dim ts ns o t.
Proof. exact (@ncon_standard R iter iter_perm dim check ts ns con out o). Qed.
Print Assumptions C16_ncon_einsum.

Example C16_example :
  sized ex1_dim ex1_ts ex1_ns /\ standard ex1_ns /\ (forall l, In l (List.concat ex1_ns) -> label_ok l) /\
  con_spec ex1_ns (Some [S "a"; I 2; I 1]) /\ out_spec ex1_ns None [I (-1); I (-2)] /\
  show (ncon rvz true ex1_ts ex1_ns (Some [S "a"; I 2; I 1]) None) = Ok ([2; 2], [5000; 6500; 7500; 9750]%Z) /\
  einsum label_dec ex1_dim [S "a"; I 2; I 1] (network ex1_ts ex1_ns) (fun l => match l with LInt (-1) => 1 | _ => 0 end) = 7500%Z.
Proof.
  split; [exact ex1_sized|]. split; [exact ex1_standard|]. split; [exact ex1_labels|]. split; [exact ex1_con|].
  split; [exact ex1_out|]. split; vm_compute; reflexivity.
Qed.

(** more generally: open labels on any number of tensors, and summed labels of one tensor *)
Theorem C16_ncon_total (R : csr) (iter : list Z -> list Z) (iter_perm : forall l, Permutation (iter l) l)
    dim check (ts : list (tensor R)) ns con out o :
  sized dim ts ns -> ordinary ns -> pairwise ns -> ns <> [] -> (forall l, In l (List.concat ns) -> label_ok l) ->
  con_spec ns con -> out_spec ns out o ->
  exists t, ncon iter check ts ns con out = Ok t /\ is_value dim ts ns o t.
Proof. exact (@ncon_total R iter iter_perm dim check ts ns con out o). Qed.
Print Assumptions C16_ncon_total.

(** C17: any two contraction orders (and set iteration orders) give the same tensor *)
Theorem C17_con_order (R : csr) (iter : list Z -> list Z) (iter_perm : forall l, Permutation (iter l) l)
    dim check check' iter' (ts : list (tensor R)) ns con con' out o t t' :
  (forall l, Permutation (iter' l) l) ->
  sized dim ts ns -> ordinary ns -> con_spec ns con -> con_spec ns con' -> out_spec ns out o ->
  ncon iter check ts ns con out = Ok t -> ncon iter' check' ts ns con' out = Ok t' -> teq t t'.
Proof. exact (@ncon_con_order R iter iter_perm dim check check' iter' ts ns con con' out o t t'). Qed.
Print Assumptions C17_con_order.

Example C17_example :
  show (ncon rvz true ex1_ts ex1_ns (Some [S "a"; I 2; I 1]) None) = show (ncon idz true ex1_ts ex1_ns None None) /\
  show (ncon rvz true ex2_ts ex2_ns (Some [I 7; I 3]) None) = show (ncon idz false ex2_ts ex2_ns (Some [I 3; I 7]) None) /\
  show (ncon idz true ex2_ts ex2_ns None None) = Ok ([2; 2], [-572; -638; -64; -79]%Z).
Proof. repeat split; vm_compute; reflexivity. Qed.

(** C18: out_order lists the axes of the result *)
Theorem C18_out_order (R : csr) (iter : list Z -> list Z) (iter_perm : forall l, Permutation (iter l) l)
    dim check (ts : list (tensor R)) ns con out out' o o' t t' :
  sized dim ts ns -> ordinary ns -> con_spec ns con -> out_spec ns out o -> out_spec ns out' o' ->
  ncon iter check ts ns con out = Ok t -> ncon iter check ts ns con out' = Ok t' ->
  Permutation o o' /\ shape t = map dim o /\ shape t' = map dim o' /\
  forall a, (forall l, In l o -> a l < dim l) -> elt t (map a o) = elt t' (map a o').
Proof. exact (@ncon_out_order R iter iter_perm dim check ts ns con out out' o o' t t'). Qed.
Print Assumptions C18_out_order.

(** injective renamings that keep open labels open *)
Theorem C18_rename (R : csr) (iter : list Z -> list Z) (iter_perm : forall l, Permutation (iter l) l)
    (f : label -> label) (ns : list (list label)) :
  (forall x y, In x (List.concat ns) -> In y (List.concat ns) -> f x = f y -> x = y) ->
  (forall x, In x (List.concat ns) -> (Open (f x) <-> Open x)) ->
  forall dim check check' iter' (ts : list (tensor R)) con con' out out' o t t',
  (forall l, Permutation (iter' l) l) ->
  sized dim ts ns -> ordinary ns ->
  con_spec ns con -> con_spec (map (map f) ns) con' -> out_spec ns out o -> out_spec (map (map f) ns) out' (map f o) ->
  ncon iter check ts ns con out = Ok t -> ncon iter' check' ts (map (map f) ns) con' out' = Ok t' -> teq t t'.
Proof. exact (@ncon_rename R iter iter_perm f ns). Qed.
Print Assumptions C18_rename.

(** the last hypothesis on orders holds for the default order when f is monotone on open labels *)
Theorem C18_rename_default (f : label -> label) ns o :
  (forall x y, In x (List.concat ns) -> In y (List.concat ns) -> f x = f y -> x = y) ->
  (forall x, In x (List.concat ns) -> (Open (f x) <-> Open x)) ->
  (forall x y, In x (List.concat ns) -> In y (List.concat ns) -> Open x -> Open y -> out_before x y -> out_before (f x) (f y)) ->
  out_spec ns None o -> out_spec (map (map f) ns) None (map f o).
Proof. intros H1 H2. exact (@renamed_out_default f ns H1 H2 o). Qed.
Print Assumptions C18_rename_default.

Example C18_example :
  let f := fun l => match l with LInt 7 => S "z" | LInt 3 => I 100 | LInt (-1) => S "-b" | _ => S "-c" end in
  show (ncon rvz true ex2_ts (map (map f) ex2_ns) None None) = show (ncon idz true ex2_ts ex2_ns None None) /\
  show (ncon idz true ex2_ts ex2_ns None (Some [S "-x"; I (-1)])) = Ok ([2; 2], [-572; -64; -638; -79]%Z) /\
  out_spec ex2_ns (Some [S "-x"; I (-1)]) [S "-x"; I (-1)].
Proof. cbv zeta. split; [vm_compute; reflexivity|]. split; [vm_compute; reflexivity|]. exact ex2_out. Qed.

(** C19: with check_network=True a call returns only on valid structures (NconSpec [Valid]),
    raises on all others, and returns on every valid structure whose labels are within the documented format
    (see the refutations in R_Ncon.v for what lies outside) *)
Theorem C19_rejects (R : csr) iter (ts : list (tensor R)) ns con out :
  ~ Valid ns (map (@shape R) ts) (none_if_empty con) (none_if_empty out) -> ncon iter true ts ns con out = Raise.
Proof. exact (@ncon_rejects_raise R iter ts ns con out). Qed.
Print Assumptions C19_rejects.

Theorem C19_accepts (R : csr) (iter : list Z -> list Z) (iter_perm : forall l, Permutation (iter l) l) (ts : list (tensor R)) ns con out :
  ordinary ns -> pairwise ns -> ns <> [] -> open_sizes ns (map (@shape R) ts) ->
  ((exists t, ncon iter true ts ns con out = Ok t) <-> Valid ns (map (@shape R) ts) (none_if_empty con) (none_if_empty out)).
Proof. exact (@ncon_accepts R iter iter_perm ts ns con out). Qed.
Print Assumptions C19_accepts.

Theorem C19_check_network ns dims con out : check_network ns dims con out = true <-> Valid ns dims con out.
Proof. exact (@check_network_iff ns dims con out). Qed.
Print Assumptions C19_check_network.

Example C19_example :
  Valid ex1_ns (map (@shape Z_csr) ex1_ts) (Some [S "a"; I 2; I 1]) None /\
  ncon idz true ex1_ts ex1_ns (Some [S "a"; I 2]) None = Raise /\
  ncon idz true ex1_ts ex1_ns None (Some [I (-1); I (-3)]) = Raise /\
  ncon idz true [tz 1 [2]; tz 1 [3]] [[I 1]; [I 1]] None None = Raise /\
  ncon idz true [tz 1 [2; 2]] [[I (-1)]] None None = Raise /\
  ncon idz true [tz 1 [2]] [[I (-1)]; [I (-2)]] None None = Raise /\
  ncon idz true [tz 1 [2]] [[I 0]] None None = Raise.
Proof. split; [apply check_network_iff|]; repeat split; vm_compute; reflexivity. Qed.

(** C20: labels on any number of tensors; a result is the Einstein sum, with one axis per open label *)
Theorem C20_batch_value (R : csr) (iter : list Z -> list Z) (iter_perm : forall l, Permutation (iter l) l)
    dim check (ts : list (tensor R)) ns con out o t :
  sized dim ts ns -> ordinary ns -> con_spec ns con -> out_spec ns out o ->
  ncon iter check ts ns con out = Ok t -> is_value dim ts ns o t.
Proof. exact (@ncon_value R iter iter_perm dim check ts ns con out o t). Qed.
Print Assumptions C20_batch_value.

Example C20_example :
  sized ex2_dim ex2_ts ex2_ns /\ ordinary ex2_ns /\ out_spec ex2_ns (Some [S "-x"; I (-1)]) [S "-x"; I (-1)] /\
  show (ncon rvz true ex2_ts ex2_ns None (Some [S "-x"; I (-1)])) = Ok ([2; 2], [-572; -64; -638; -79]%Z) /\
  einsum label_dec ex2_dim [I 7; I 3] (network ex2_ts ex2_ns) (fun l => match l with LStr _ => 0 | _ => 1 end) = (-64)%Z.
Proof. split; [exact ex2_sized|]. split; [exact ex2_ordinary|]. split; [exact ex2_out|]. split; vm_compute; reflexivity. Qed.

(** * PathSolveNcon: the solver on networks in the notation of ncon
    (contractors/custom_path_solvers/nconinterface.py:21-125).

    Tensors are given by their shapes; labels are integers (numpy turns the labels into floats when some tensor has
    rank 0, not modelled).  [ldim d] is [np.log10(d)]. *)
From Coq Require Import ZArith.
From Verif Require Import Prelude Res Ncon PathSolve.
Set Implicit Arguments.
Unset Strict Implicit.

(** [np.unique] *)
Definition zuniq (l : list Z) : list Z := sort Z.leb (nodup Z.eq_dec l).

Section Labels.
  Variable labels : list (list Z).
  (** 65-81: where the label [e] is, as (tensor, axis) *)
  Definition axes_of (t : nat) (e : Z) : list nat := filter (fun k => Z.eqb (nth k (nth t labels []) 0%Z) e) (seq 0 (length (nth t labels []))).
  Definition locs (e : Z) : list (nat * nat) := flat_map (fun t => map (fun k => (t, k)) (axes_of t e)) (seq 0 (length labels)).
End Labels.

Section Adj.
  Context {L : lsf}.
  Variable ldim : nat -> L.
  Notation mat := (list (list L)).
  (** [log_adj[x, y] += v] *)
  Definition bump (m : mat) (x y : nat) (v : L) : mat := build (length m) (fun a b => if (a =? x) && (b =? y) then lplus (get m a b) v else get m a b).
  (** [tensors[t].shape[k]]; [IndexError] *)
  Definition shape_at (shapes : list (list nat)) (t k : nat) : res nat :=
    match nth_error shapes t with Some s => match nth_error s k with Some d => Ok d | None => Raise end | None => Raise end.
  (** 77-88: one label *)
  Definition add_label (shapes : list (list nat)) (labels : list (list Z)) (m : mat) (e : Z) : res mat :=
    match locs labels e with
    | [(t, k)] => rbind (shape_at shapes t k) (fun d => Ok (bump m t t (ldim d)))
    | [(t0, k0); (t1, k1)] =>
        if t0 =? t1 then Ok m
        else rbind (shape_at shapes t0 k0) (fun d => Ok (bump (bump m t0 t1 (ldim d)) t1 t0 (ldim d)))
    | _ => Ok m
    end.
  Fixpoint add_labels (shapes : list (list nat)) (labels : list (list Z)) (m : mat) (es : list Z) : res mat :=
    match es with [] => Ok m | e :: r => rbind (add_label shapes labels m e) (fun m' => add_labels shapes labels m' r) end.
  (** 48-90 [ncon_to_adj]; [np.hstack] of no arrays raises *)
  Definition ncon_to_adj (shapes : list (list nat)) (labels : list (list Z)) : res mat :=
    let n := length labels in
    guard (negb (n =? 0)) (add_labels shapes labels (build n (fun _ _ => l0)) (zuniq (concat labels))).
End Adj.

(** 112-116: the traced labels of one tensor, and its other labels *)
Definition traced (ls : list Z) : list Z := zuniq (filter (fun l => zcount ls l =? 2) ls).
Definition untraced (ls : list Z) : list Z := filter (fun l => zcount ls l =? 1) ls.
(** [np.delete(l, ks)] *)
Definition delete_at (ks : list nat) (l : list Z) : list Z := map (fun k => nth k l 0%Z) (filter (fun k => negb (mem k ks)) (seq 0 (length l))).
(** [np.intersect1d(a, b, return_indices=True)]: the labels; the indices are those of first occurrences *)
Definition common (a b : list Z) : list Z := zuniq (filter (fun l => zmem l b) a).
(** [l[p] = v], [del l[p]] *)
Definition set_nth {A} (l : list A) (p : nat) (v : A) : list A := firstn p l ++ match skipn p l with [] => [] | _ :: r => v :: r end.
Definition del_nth {A} (l : list A) (p : nat) : list A := firstn p l ++ skipn (S p) l.
(** 118-130: one contraction *)
Definition ord_step (cur : list (list Z)) (con : list Z) (p : nat * nat) : res (list (list Z) * list Z) :=
  match nth_error cur (fst p), nth_error cur (snd p) with
  | Some a, Some b =>
      let c := common a b in
      let rest := delete_at (map (fun l => zindex l a) c) a ++ delete_at (map (fun l => zindex l b) c) b in
      Ok (del_nth (set_nth cur (fst p) rest) (snd p), con ++ c)
  | _, _ => Raise
  end.
Fixpoint ord_steps (cur : list (list Z)) (con : list Z) (orders : list (nat * nat)) : res (list Z) :=
  match orders with
  | [] => Ok con
  | p :: r => rbind (ord_step cur con p) (fun s => ord_steps (fst s) (snd s) r)
  end.
(** 93-132 [ord_to_ncon]; [reshape] raises when the number of contractions is wrong *)
Definition ord_to_ncon (labels : list (list Z)) (orders : list (nat * nat)) : res (list Z) :=
  guard (negb (length labels =? 0) && (length orders =? length labels - 1))
    (ord_steps (map untraced labels) (flat_map traced labels) orders).

(** 21-45 [ncon_solver] *)
Definition ncon_solver {L : lsf} (argsort : list L -> list nat) (ldim : nat -> L) (shapes : list (list nat)) (labels : list (list Z)) (max_branch : option nat)
    : res (list Z * L * bool) :=
  rbind (ncon_to_adj ldim shapes labels) (fun adj =>
  rbind (full_solve_complete argsort adj max_branch) (fun r =>
  rbind (ord_to_ncon labels (an_order r)) (fun con =>
  Ok (con, an_cost r, an_optimal r)))).

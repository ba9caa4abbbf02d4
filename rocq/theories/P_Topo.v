(** * P_Topo: from_topology makes exactly the network that its string names *)
From Coq Require Import Permutation List Lia ZArith.
From Verif Require Import Prelude Algebra Tensor Einsum Graph GraphBase GraphOps GraphValue Topo TopoSpec TopoFacts.
Import ListNotations.

(** [from_topology]: for parts without commas, joined by commas.  If there is one part for each tensor, every letter has one
    dimension, stands at most once in a part and at most twice in all, then new nodes with the given tensors and the letters
    as axis names are returned, in the order of the parts; the other nodes are unchanged.  There is one edge [D c] for each
    letter, which is dangling exactly if the letter stands once; the value of the network is the Einstein sum that the string
    names.  In all other cases the function raises. *)
Theorem C62_topology (R : csr) (s : @st R) parts (ts : list (tensor R)) : wf s -> parts <> [] -> (forall cs, In cs parts -> ~ In 44 cs) ->
  (good_topology parts ts -> exists s' ns D, from_topology (commas parts) ts s = (s', Some ns) /\ wf s' /\ NoDup ns /\ length ns = length ts /\
    (forall m, In m ns -> s_nodes s m = None) /\ (forall m, s_nodes s m <> None -> s_nodes s' m = s_nodes s m) /\
    (forall i cs t, nth_error parts i = Some cs -> nth_error ts i = Some t -> exists m, nth_error ns i = Some m /\ s_nodes s' m = Some (Node t (map D cs) cs)) /\
    (forall c c', In c (concat parts) -> In c' (concat parts) -> D c = D c' -> c = c') /\
    (forall c, In c (concat parts) -> exists ed, s_edges s' (D c) = Some ed /\ (e_2 ed = None <-> count_occ Nat.eq_dec (concat parts) c = 1)) /\
    forall dim a, Forall2 (fun cs t => shape t = map dim cs) parts ts -> netval s' ns a = value Nat.eq_dec dim (combine ts parts) (fun c => a (D c))) /\
  (~ good_topology parts ts -> snd (from_topology (commas parts) ts s) = None).
Proof. exact (@topology_ok R s parts ts). Qed.
Print Assumptions C62_topology.

(** every string is of this form: the parts of any topology hold no commas and give it back *)
Theorem C62_strings topology : split_commas topology <> [] /\ (forall cs, In cs (split_commas topology) -> ~ In 44 cs) /\ commas (split_commas topology) = topology.
Proof.
  induction topology as [|c l (I1 & I2 & I3)]; [split; [discriminate|split; [intros cs [<-|[]] []|reflexivity]]|]. cbn [split_commas].
  destruct (split_commas l) as [|p ps]; [congruence|]. destruct (Nat.eqb_spec c 44) as [->|Hc].
  - split; [discriminate|]. split; [intros cs [<-|Hcs]; [intros []|apply I2, Hcs]|]. rewrite <- I3. reflexivity.
  - split; [discriminate|]. split.
    + intros cs [<-|Hcs]; [|apply I2; right; exact Hcs]. intros [Z|Z]; [congruence|]. apply (I2 p); [left; reflexivity|exact Z].
    + destruct ps as [|q ps]; cbn in I3 |- *; rewrite I3; reflexivity.
Qed.
Print Assumptions C62_strings.

(** "xy,yz,zx" of the docstring, with dimensions 2, 3 and 2 *)
Definition xyz : list (list nat) := [[120; 121]; [121; 122]; [122; 120]].
Definition ten (sh : list nat) : tensor Z_csr := Tensor sh (fun ix => Z.of_nat (1 + ravel sh ix) : Z_csr).
Definition xyz_t : list (tensor Z_csr) := [ten [2; 3]; ten [3; 2]; ten [2; 2]].
Example C62_topology_ex : wf (@empty_st Z_csr) /\ good_topology xyz xyz_t /\ (forall cs, In cs xyz -> ~ In 44 cs) /\
  commas xyz = [120; 121; 44; 121; 122; 44; 122; 120] /\
  (let r := from_topology (commas xyz) xyz_t empty_st in match snd r with Some ns => length ns = 3 /\ netval (fst r) ns (fun _ => 0) = 460%Z | None => False end).
Proof.
  split; [apply empty_wf|]. split; [|split; [|split; [reflexivity|vm_compute; auto]]].
  - split; [reflexivity|]. split; [exists (fun c => if c =? 121 then 3 else 2); repeat constructor|]. split.
    + intros cs [<-|[<-|[<-|[]]]]; repeat constructor; cbn; intuition discriminate.
    + intros c. cbn [concat xyz app count_occ]. repeat match goal with |- context [Nat.eq_dec ?x c] => destruct (Nat.eq_dec x c) end; try lia; subst; discriminate.
  - intros cs [<-|[<-|[<-|[]]]]; cbn; intuition discriminate.
Qed.

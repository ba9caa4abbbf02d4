(** * C74: collapsing rows of numbers into numbers and expanding them *)
From Verif Require Import Prelude Res Collapse CollapseFacts.
Set Implicit Arguments.
Unset Strict Implicit.

(** up to 8 bytes the dtype is the smallest one that has room *)
Theorem C74_dtype n : n <= 8 -> In (get_dtype n) [1; 2; 4; 8] /\ n <= get_dtype n /\ forall d, In d [1; 2; 4; 8] -> n <= d -> get_dtype n <= d.
Proof.
  intros H. unfold get_dtype. destruct (Nat.ltb_spec 1 n), (Nat.ltb_spec 2 n), (Nat.ltb_spec 4 n); cbn; repeat split; auto; try lia;
    intros d [<-|[<-|[<-|[<-|[]]]]]; lia.
Qed.
Print Assumptions C74_dtype.

(** rows of at most 8 bytes become one number of the dtype each; equal numbers come from equal rows *)
Theorem C74_collapse s w rows : In s [1; 2; 4; 8] -> 1 <= w -> s * w <= 8 -> length rows <> 1 ->
  Forall (fun r => length r = w /\ Forall (fun x => length x = s) r) rows ->
  exists l, collapse s (A2 w rows) = Ok (A1 l) /\ length l = length rows /\ Forall (fun x => length x = get_dtype (s * w)) l /\
    forall i j, i < length rows -> j < length rows -> (nth i l [] = nth j l [] <-> nth i rows [] = nth j rows []).
Proof.
  intros Hs Hw H N R. eexists. split; [apply collapse_ok; eassumption|]. destruct (padded_ok Hs Hw H) as [E1 E2]. pose proof (rect_pad E2 R) as Rp.
  unfold rect in Rp. rewrite Forall_forall in Rp, R. split; [apply map_length|]. split.
  - apply Forall_forall. intros x Hx. apply in_map_iff in Hx as (r & <- & Hr). destruct (Rp (pad s w r)) as [L F]; [apply in_map, Hr|].
    rewrite (concat_len F), L. exact E1.
  - intros i j Hi Hj. set (g := fun r => concat (pad s w r)).
    rewrite (nth_indep _ [] (g [])) by (rewrite map_length; exact Hi). rewrite (nth_indep (map g rows) [] (g [])) by (rewrite map_length; exact Hj).
    rewrite !map_nth. split; [|intros ->; reflexivity]. unfold g. intros E.
    assert (forall r, In r rows -> firstn w (chunks (padded w) s (concat (pad s w r))) = r) as K.
    { intros r Hr. destruct (Rp (pad s w r)) as [L F]; [apply in_map, Hr|]. rewrite <- L, chunks_concat by exact F. destruct (R r Hr) as [L' _].
      unfold pad. rewrite firstn_app, L', Nat.sub_diag, <- L', firstn_all. apply app_nil_r. }
    rewrite <- (K _ (nth_In _ [] Hi)), <- (K _ (nth_In _ [] Hj)), E. reflexivity.
Qed.
Print Assumptions C74_collapse.

(** expanding gives the array back *)
Theorem C74_roundtrip s w rows : In s [1; 2; 4; 8] -> 1 <= w -> s * w <= 8 -> length rows <> 1 ->
  Forall (fun r => length r = w /\ Forall (fun x => length x = s) r) rows ->
  rbind (collapse s (A2 w rows)) (expand (get_dtype (s * w)) s w 2) = Ok (A2 w rows).
Proof. intros Hs Hw H N R. rewrite (collapse_ok Hs Hw H R N). apply expand_ok; assumption. Qed.
Print Assumptions C74_roundtrip.

(** wider rows are left as they are by both *)
Theorem C74_wide k s w rows : 8 < s * w ->
  collapse s (A2 w rows) = Ok (A2 w rows) /\ expand k s w 2 (A2 w rows) = Ok (A2 w rows).
Proof. intros H. unfold collapse. destruct (Nat.ltb_spec 8 (s * w)); [|lia]. split; reflexivity. Qed.
Print Assumptions C74_wide.

Example C74_ex : collapse 2 (A2 3 [[[1; 0]; [2; 0]; [3; 1]]; [[255; 255]; [0; 0]; [7; 0]]]) = Ok (A1 [[1; 0; 2; 0; 3; 1; 0; 0]; [255; 255; 0; 0; 7; 0; 0; 0]]) /\
  In 2 [1; 2; 4; 8] /\ 2 * 3 <= 8 /\ Forall (fun r => length r = 3 /\ Forall (fun x => length x = 2) r) [[[1; 0]; [2; 0]; [3; 1]]; [[255; 255]; [0; 0]; [7; 0]]].
Proof. split; [reflexivity|]. split; [cbn; auto|]. split; [lia|]. repeat constructor. Qed.
Example C74_ex5 : collapse 1 (A2 5 [[[1]; [2]; [3]; [4]; [5]]; [[6]; [7]; [8]; [9]; [10]]]) = Ok (A1 [[1; 2; 3; 4; 5; 0; 0; 0]; [6; 7; 8; 9; 10; 0; 0; 0]]).
Proof. reflexivity. Qed.
Example C74_ex_wide : 8 < 4 * 3.
Proof. lia. Qed.

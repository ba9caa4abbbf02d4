(** * Property C13: which singular values are kept *)
From Coq Require Import Reals List Lra Sorting.Sorted.
From Verif Require Import Res SvdTrunc SvdTruncFacts.
Import ListNotations.
Set Implicit Arguments.
Unset Strict Implicit.
Local Open Scope R_scope.

(** The kept values are a prefix, at most [max_singular_values] many.  With a maximal error e >= 0
    (absolute, or relative to the first value) every shorter prefix has an error above e, and the
    discarded values have norm at most e unless max_singular_values binds. *)
Theorem C13_truncation s maxsv err relative kept rest :
  truncate s maxsv err relative = Ok (kept, rest) ->
  kept ++ rest = s /\
  (forall D, maxsv = Some D -> (length kept <= D)%nat) /\
  (err = None -> length kept = match maxsv with Some D => Nat.min D (length s) | None => length s end) /\
  (forall e, err = Some e -> 0 <= abs_error s e relative ->
     (forall k, (k < length kept)%nat -> abs_error s e relative < norm (skipn k s)) /\
     (norm rest <= abs_error s e relative \/ maxsv = Some (length kept))).
Proof. exact (@truncate_spec s maxsv err relative kept rest). Qed.
Print Assumptions C13_truncation.

Theorem C13_truncation_total s maxsv err relative : (relative = true -> s <> []) ->
  exists kept rest, truncate s maxsv err relative = Ok (kept, rest).
Proof. exact (@truncate_total s maxsv err relative). Qed.
Print Assumptions C13_truncation_total.

Theorem C13_truncation_largest s maxsv err relative kept rest :
  StronglySorted Rge s -> truncate s maxsv err relative = Ok (kept, rest) ->
  forall x y, In x kept -> In y rest -> x >= y.
Proof. exact (@truncate_largest s maxsv err relative kept rest). Qed.
Print Assumptions C13_truncation_largest.

Example C13_truncation_example :
  StronglySorted Rge [12; 4; 3] /\
  truncate [12; 4; 3] (Some 2%nat) (Some (1 / 2)) true = Ok ([12], [4; 3]) /\
  truncate [12; 4; 3] None (Some 4) false = Ok ([12; 4], [3]) /\
  truncate [12; 4; 3] (Some 1%nat) (Some 4) false = Ok ([12], [4; 3]).
Proof.
  split; [repeat (constructor; [|repeat constructor; lra]); constructor|].
  assert (trunc_errs [12; 4; 3] = [3; 5; 13]) as E.
  { unfold trunc_errs. cbn [rev app map rcumsum]. f_equal; [|f_equal; [|f_equal]].
    - replace (0 + 3 * 3) with (3 * 3) by lra. apply sqrt_square. lra.
    - replace (0 + 3 * 3 + 4 * 4) with (5 * 5) by lra. apply sqrt_square. lra.
    - replace (0 + 3 * 3 + 4 * 4 + 12 * 12) with (13 * 13) by lra. apply sqrt_square. lra. }
  assert (forall e, 5 < e < 13 -> count_gt e [3; 5; 13] = 1%nat) as C1.
  { intros e He. unfold count_gt. cbn [filter].
    destruct (Rlt_dec e 3); [lra|]. destruct (Rlt_dec e 5); [lra|]. destruct (Rlt_dec e 13); [reflexivity | lra]. }
  assert (forall e, 3 < e < 5 -> count_gt e [3; 5; 13] = 2%nat) as C2.
  { intros e He. unfold count_gt. cbn [filter].
    destruct (Rlt_dec e 3); [lra|]. destruct (Rlt_dec e 5); [|lra]. destruct (Rlt_dec e 13); [reflexivity | lra]. }
  unfold truncate, num_keep. rewrite E, C1, C2 by lra. cbn. auto.
Qed.

(** * Collapse: model of get_dtype, collapse and expand (block_sparse/utils.py).
    A number is the list of its bytes in memory; a view regroups the bytes of a row. Arrays have 0, 1 or 2 dimensions. *)
From Verif Require Import Prelude Res.
Set Implicit Arguments.
Unset Strict Implicit.

Notation byte := nat (only parsing).
Notation number := (list byte) (only parsing).
(** [A2 w rows]: rows of [w] numbers *)
Inductive arr := A0 (x : number) | A1 (l : list number) | A2 (w : nat) (rows : list (list number)).

(** utils.py 166-178 [get_dtype]: the number of bytes of the dtype *)
Definition get_dtype (itemsize : nat) : nat :=
  let d := 1 in
  let d := if 1 <? itemsize then 2 else d in
  let d := if 2 <? itemsize then 4 else d in
  if 4 <? itemsize then 8 else d.
(** consecutive groups of [k] bytes; [n] groups *)
Fixpoint chunks (n k : nat) (l : list byte) : list number :=
  match n with 0 => [] | S m => firstn k l :: chunks m k (skipn k l) end.
(** [array.view(dtype)] of rows of [w] numbers of [s] bytes: raises if the bytes of a row are not a multiple of [k] *)
Definition view (s k w : nat) (rows : list (list number)) : res arr :=
  if (w * s) mod k =? 0 then Ok (A2 (w * s / k) (map (fun r => chunks (w * s / k) k (concat r)) rows)) else Raise.
(** [np.squeeze] *)
Definition squeeze (a : arr) : arr :=
  match a with
  | A0 x => A0 x
  | A1 [x] => A0 x
  | A1 l => A1 l
  | A2 w rows =>
      if w =? 1 then match map (hd []) rows with [x] => A0 x | l => A1 l end
      else match rows with [r] => A1 r | _ => A2 w rows end
  end.
(** utils.py 181-208 [collapse] of numbers of [s] bytes *)
Definition collapse (s : nat) (a : arr) : res arr :=
  match a with
  | A2 w rows =>
      if 8 <? s * w then Ok a
      else
        let k := get_dtype (s * w) in
        if mem w [1; 2; 4; 8] then rbind (view s k w rows) (fun t => Ok (squeeze t))
        else
          let width := if w =? 3 then 1 else 8 - w in
          rbind (view s k (w + width) (map (fun r => r ++ repeat (repeat 0 s) width) rows)) (fun t => Ok (squeeze (squeeze t)))
  | _ => Ok a
  end.
(** utils.py 211-237 [expand] of numbers of [k] bytes to numbers of [s] bytes *)
Definition expand (k s original_width original_ndim : nat) (a : arr) : res arr :=
  if original_ndim <=? 1 then Ok (squeeze a)
  else
    match a with
    | A1 l =>
        rbind (view k s 1 (map (fun x => [x]) l)) (fun t =>
          match t with
          | A2 w rows =>
              if mem original_width [3; 5; 6; 7] then Ok (A2 (Nat.min original_width w) (map (firstn original_width) rows))
              else Ok (A2 w rows)
          | _ => Ok t
          end)
    | _ => Ok a
    end.

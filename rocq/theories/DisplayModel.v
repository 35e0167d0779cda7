(** Printing tensors: crates/hodu_core/src/tensor/display.rs.  The text is a list of pieces: brackets, other fixed text,
    and the text of an element padded to a width.  [text] stands for format_value_with_precision (L43-200). *)
From Coq Require Import String List Arith Bool.
From Verif Require Import Base IndexSpec LayoutModel KernelModel TensorModel EncodeModel.
Import ListNotations.

Inductive piece (A : Type) := Open | Close | Fixed (s : string) | Item (a : A) (width : nat).
Arguments Open {A}. Arguments Close {A}. Arguments Fixed {A} s. Arguments Item {A} a width.

(** MAX_ELEMENTS_PER_DIM L23 and the choice L237-241, L275-279, L362-366 *)
Definition shown (n : nat) : nat * nat := if n <=? 8 then (n, 0) else (4, 4).
Definition comma {A} (i : nat) : list (piece A) := if i =? 0 then [] else [Fixed ", "].
(** The separators of L298-304, L316-323, L327-331: up to depth 1 a new line, indented by depth + 1 *)
Definition break_line {A} (depth : nat) : list (piece A) :=
  if depth <? 2 then [Fixed (","%string); Fixed (String (Ascii.ascii_of_nat 10) EmptyString);
                      Fixed (string_of_list_ascii (repeat (Ascii.ascii_of_nat 32) (depth + 1)))]
  else [Fixed ", "].
Definition dots {A} (depth : nat) : list (piece A) :=
  if depth <? 2 then break_line depth ++ [Fixed "..."] else [Fixed ", ... "].
(** Numbers in a row, L236-268 and L359-385 *)
Definition row {A} (width : nat) (data : list A) : list (piece A) :=
  let len := length data in
  let (a, b) := shown len in
  flat_map (fun p => comma (fst p) ++ [Item (snd p) width]) (combine (seq 0 (Nat.min a len)) data)
  ++ (if a + b <? len then [Fixed ", ... "] else [])
  ++ (if (0 <? b) && (a + b <? len) then flat_map (fun x => [Fixed ", "; Item x width]) (skipn (len - b) data) else []).
Definition max_of (l : list nat) : nat := fold_right Nat.max 0 l.
(** The width of the columns of a matrix, from its first three rows and columns, L281-295 *)
Definition corner_width {A} (text : A -> string) (data : list A) (sub n m : nat) : nat :=
  max_of (flat_map (fun i => flat_map (fun j => match nth_error data (i * sub + j) with
                                                 | Some x => [String.length (text x)] | None => [] end)
                                       (seq 0 (Nat.min m 3))) (seq 0 (Nat.min n 3))).
(** [&data[a..b]] panics out of range *)
Definition slice {A} (data : list A) (a b : nat) : outcome (list A) :=
  if (a <=? b) && (b <=? length data) then Ok (firstn (b - a) (skipn a data)) else Panic.
Definition concat_outcomes {A} (l : list (outcome (list A))) : outcome (list A) :=
  do x <- collect l ; Ok (concat x).
(** display_tensor_data L202-346; the division of L272 panics for a size of zero *)
Fixpoint display_data {A} (text : A -> string) (data : list A) (stride : nat) (s : list nat) (depth : nat)
    (column : option nat) : outcome (list (piece A)) :=
  match s with
  | [] => do a <- idx_or_panic data 0 ; Ok [Item a 0]
  | n :: rest =>
    match rest with
    | [] =>
      let width := match column with Some w => w | None => max_of (map (fun x => String.length (text x)) data) end in
      Ok (Open :: row width data ++ [Close])
    | m :: rest' =>
      if n =? 0 then Panic else
      let sub := stride / n in
      let (a, b) := shown n in
      let width := match rest' with [] => Some (corner_width text data sub n m) | _ => None end in
      let part := fun i => do d <- slice data (i * sub) ((i + 1) * sub) ; display_data text d sub rest (S depth) width in
      do front <- concat_outcomes (map (fun i => do p <- part i ; Ok ((if i =? 0 then [] else break_line depth) ++ p))
                                       (seq 0 (Nat.min a n))) ;
      do back <- (if (0 <? b) && (a + b <? n)
                  then concat_outcomes (map (fun i => do p <- part i ; Ok (break_line depth ++ p)) (seq (n - b) b))
                  else Ok []) ;
      Ok (Open :: front ++ (if a + b <? n then dots depth else []) ++ back ++ [Close])
    end
  end.
(** Display for Tensor L390-515 with a storage; an error of to_flatten_vec prints "<error>" *)
Definition display {A} (text : A -> string) (t : tensor A) : outcome (list (piece A)) :=
  match t_to_flatten_vec t with
  | Ok data => display_data text data (layout_size (tlay t)) (lshape (tlay t)) 0 None
  | Err _ => Ok [Fixed "<error>"]
  | Panic => Panic
  end.
(** debug_format_data L348-388 and the data of Debug for Tensor L517-653 *)
Definition debug_data {A} (data : list A) (s : list nat) : list (piece A) :=
  match data with
  | x :: _ => if forallb (fun d => d =? 1) s then [Item x 0] else Open :: row 0 data ++ [Close]
  | [] => Open :: row 0 data ++ [Close]
  end.
Definition debug {A} (t : tensor A) : outcome (list (piece A)) :=
  match t_to_flatten_vec t with
  | Ok data => Ok (debug_data data (lshape (tlay t)))
  | Err _ => Ok [Fixed "<error>"]
  | Panic => Panic
  end.

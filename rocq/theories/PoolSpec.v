(** What the pooling layers should compute, on the real numbers. *)
From Coq Require Import List Arith ZArith Reals Bool.
From Verif Require Import IndexSpec NumModel NnSpec.
Import ListNotations.
Open Scope nat_scope.

(** a window along one axis: size, step, and the padding on either side *)
Record win := mkWin { wsize : nat; wstep : nat; wpad : nat }.
(** position [q] of the axis belongs to output position [p] *)
Definition in_win (w : win) (p q : nat) : bool := (p * wstep w <=? q + wpad w) && (q + wpad w <? p * wstep w + wsize w).
Fixpoint in_wins (ws : list win) (p q : list nat) : bool :=
  match ws, p, q with
  | w :: ws', a :: p', b :: q' => in_win w a b && in_wins ws' p' q'
  | _, _, _ => true
  end.
(** the positions of the spatial axes [l] in the window of output position [p] *)
Definition region (ws : list win) (l p : list nat) : list (list nat) := filter (in_wins ws p) (all_idx l).
(** the number of windows that fit *)
Definition count (w : win) (d : nat) : nat := (d + 2 * wpad w - wsize w) / wstep w + 1.
Fixpoint counts (ws : list win) (l : list nat) : list nat :=
  match ws, l with w :: ws', d :: l' => count w d :: counts ws' l' | _, _ => [] end.
Definition fits (w : win) (d : nat) : Prop := wsize w <= d + 2 * wpad w /\ 0 < wstep w.

(** the largest of the numbers [f q], [q] in [l], or -infinity *)
Definition largest {A} (l : list A) (f : A -> R) (v : xr) : Prop :=
  (l = [] /\ v = NInf) \/ exists m, v = Fin m /\ (exists q, In q l /\ f q = m) /\ forall q, In q l -> (f q <= m)%R.

(** a list of cuts of [0 .. n-1] into consecutive blocks *)
Definition cuts (n : nat) (c : list nat) : Prop :=
  hd 0 c = 0 /\ last c 0 = n /\ forall i, S i < length c -> nth i c 0 <= nth (S i) c 0.
(** position [q] of the channel of output index [i] *)
Definition in_channel (i q : list nat) : list nat := nth 0 i 0 :: nth 1 i 0 :: q.
(** position [q] lies in block [p] of the cuts [cs], one list of cuts per axis *)
Fixpoint between (cs : list (list nat)) (p q : list nat) : bool :=
  match cs, p, q with
  | c :: cs', a :: p', b :: q' => (nth a c 0 <=? b) && (b <? nth (S a) c 0) && between cs' p' q'
  | _, _, _ => true
  end.
(** rounded cut points that rise strictly from 0 and stay below the length of the axis *)
Definition rising (L o : nat) (cut : nat -> nat) : Prop := 0 < o /\ cut 0 = 0 /\ (forall i, S i < o -> cut i < cut (S i)) /\ cut (o - 1) < L.
(** the ends of the blocks *)
Definition cut_points (cut : nat -> nat) (L o : nat) : list nat := map cut (seq 0 o) ++ [L].
Definition cut_lists (cut : nat -> nat -> nat -> nat) (l os : list nat) : list (list nat) :=
  map (fun t => cut_points (cut (fst t) (snd t)) (fst t) (snd t)) (combine l os).
(** the windows used to reduce an axis of length [L] to [o] *)
Definition adaptive_win (L o : nat) : win := mkWin (L - (o - 1) * (L / o)) (L / o) 0.
Fixpoint adaptive_wins (l os : list nat) : list win :=
  match l, os with L :: l', o :: os' => adaptive_win L o :: adaptive_wins l' os' | _, _ => [] end.

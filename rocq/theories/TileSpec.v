(** What it means for a matrix product to be computed by a grid of threads. *)
From Coq Require Import List Arith ZArith Bool.
From Verif Require Import Base IndexSpec LayoutModel KernelModel TensorModel ReduceModel ScanModel MatrixModel TileModel.
Import ListNotations.

(** the values of a buffer, if all are determined *)
Fixpoint all_some {A} (l : list (option A)) : option (list A) :=
  match l with
  | [] => Some []
  | Some x :: r => match all_some r with Some y => Some (x :: y) | None => None end
  | None :: _ => None
  end.

(** the batched product by the kernel of ops_matrix.cu:9-87, its threads moving
    as [sched] says; the output buffer holds nothing determined before *)
Definition by_grid {A} (zero : A) (mac : A -> A -> A -> A) (lefts rights : nat -> list (option A))
    (sched : launch A -> list (nat * nat)) (lhs rhs out : list A) (md : list nat) : option (list A) :=
  match matmul_launch lhs rhs md with
  | None => None
  | Some l =>
    if accepted l
    then all_some (result (run zero mac l (sched l) (start zero l lefts rights (repeat None (length out)))))
    else None
  end.

(** every move of [sched] changes the state *)
Fixpoint changing {A} (zero : A) (mac : A -> A -> A -> A) (l : launch A) (sched : list (nat * nat)) (s : state A) : Prop :=
  match sched with
  | [] => True
  | w :: r => step zero mac l s w <> s /\ changing zero mac l r (step zero mac l s w)
  end.

(** the schedules under which the kernel of ops_matrix.cu:9-87 comes to its end *)
Definition completes {A} (zero : A) (mac : A -> A -> A -> A) (lefts rights : nat -> list (option A))
    (sched : launch A -> list (nat * nat)) : Prop :=
  forall l, tile l = 16 -> side l = 16 -> 0 < wide l -> 0 < high l ->
    finished (run zero mac l (sched l) (start zero l lefts rights (repeat None (deep l * (rows l * cols l))))).

(** one of them: all threads in turn, often enough *)
Definition in_rounds {A} (l : launch A) : list (nat * nat) :=
  concat (repeat (list_prod (seq 0 (wide l * high l * deep l)) (seq 0 (side l * side l)))
                 (wide l * high l * deep l * (side l * side l * (tiles l * (tile l + 4) + 1)))).

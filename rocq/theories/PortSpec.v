(** Programs that can be expected to do the same on the CPU and on the GPU. *)
From Coq Require Import ZArith List Bool Arith.
From Verif Require Import PortModel.
Import ListNotations.

(** The state of a program, as its author has to keep track of it: which views have their data in the memory of the host (p_host) and of
    the device (p_dev); the list that commands are being given to, with the views these use (p_open); views used by submitted commands
    nobody has waited for (p_busy) and their lists (p_flying); lists that were submitted and not reset (p_closed); the number of commands
    given; launches in the task queue since the last sync (p_started) and before it (p_valid). *)
Record plan := Plan { p_host : nat -> bool; p_dev : nat -> bool; p_open : option (nat * list nat); p_busy : list nat; p_flying : list nat;
  p_closed : list nat; p_count : nat; p_started : list nat; p_valid : list nat }.
Definition setb (f : nat -> bool) (v : nat) (b : bool) : nat -> bool := fun w => if w =? v then b else f w.
Definition setall (f : nat -> bool) (vs : list nat) (b : bool) : nat -> bool := fun w => if memn w vs then b else f w.

Section Rules.
Variable views : nat -> kind.
Variable size : nat -> nat.
Variable kernels : nat -> kernel.

Definition on_host (s : plan) (v : nat) : bool := if is_shared (views v) then p_dev s v else p_host s v.
Definition used (s : plan) : list nat := match p_open s with Some (_, vs) => vs | None => [] end ++ p_busy s.
Definition uses (c : cmd) : list nat :=
  match c with
  | ToDev v | ToHost v => [v]
  | Copy d s _ => [d; s]
  | Launch k => k_reads (kernels k) ++ k_writes (kernels k)
  | Barrier => []
  end.

(** Commands: data is copied to the device before kernels read it there and back before the host reads it; copies between views have
    different views and fit, and copy all of the destination unless it has data. *)
Inductive command : plan -> cmd -> (nat -> bool) -> (nat -> bool) -> Prop :=
| C_todev s v : has_host (views v) = true -> on_host s v = true -> command s (ToDev v) (p_host s) (setb (p_dev s) v true)
| C_tohost s v : has_host (views v) = true -> p_dev s v = true -> command s (ToHost v) (setb (p_host s) v true) (p_dev s)
| C_copy s d v n : d <> v -> n <= size d -> n <= size v -> p_dev s v = true -> p_dev s d = true \/ n = size d ->
    command s (Copy d v n) (setb (p_host s) d false) (setb (p_dev s) d true)
| C_launch s k : (forall v, In v (k_reads (kernels k)) -> p_dev s v = true) ->
    command s (Launch k) (setall (p_host s) (k_writes (kernels k)) false) (setall (p_dev s) (k_writes (kernels k)) true)
| C_barrier s : command s Barrier (p_host s) (p_dev s).

(** Programs: the host does not use a view between giving a command that uses it and waiting for it; one list is filled at a time and
    submitted once, then reset after waiting; the task queue is not used while command lists are at work; futures are those of
    launches in the task queue, after sync. *)
Inductive follows : plan -> op -> plan -> Prop :=
| F_write s v f : has_host (views v) = true -> on_host s v = true -> ~ In v (used s) -> (forall b, length b = size v -> length (f b) = size v) ->
    follows s (Write v f) (Plan (setb (p_host s) v true) (setb (p_dev s) v (is_shared (views v))) (p_open s) (p_busy s) (p_flying s) (p_closed s) (p_count s) (p_started s) (p_valid s))
| F_fill s v b : has_host (views v) = true -> ~ In v (used s) -> length b = size v ->
    follows s (Write v (fun _ => b)) (Plan (setb (p_host s) v true) (setb (p_dev s) v (is_shared (views v))) (p_open s) (p_busy s) (p_flying s) (p_closed s) (p_count s) (p_started s) (p_valid s))
| F_read s v : has_host (views v) = true -> on_host s v = true -> ~ In v (used s) -> follows s (Read v) s
| F_valid s i : In i (p_valid s) -> follows s (Valid i) s
| F_give s l c h d : (p_open s = None \/ exists vs, p_open s = Some (l, vs)) -> ~ In l (p_closed s) -> (l = 0 -> p_flying s = []) -> command s c h d ->
    follows s (Give l c) (Plan h d (Some (l, uses c ++ match p_open s with Some (_, vs) => vs | None => [] end)) (p_busy s) (p_flying s) (p_closed s) (S (p_count s))
                            (if (l =? 0) && is_launch c then p_count s :: p_started s else p_started s) (p_valid s))
| F_submit s l vs : p_open s = Some (S l, vs) ->
    follows s (Submit l) (Plan (p_host s) (p_dev s) None (vs ++ p_busy s) (S l :: p_flying s) (S l :: p_closed s) (p_count s) (p_started s) (p_valid s))
| F_wait s : follows s Wait (Plan (p_host s) (p_dev s) (p_open s) [] [] (p_closed s) (p_count s) (p_started s) (p_valid s))
| F_reset s l : In (S l) (p_closed s) -> ~ In (S l) (p_flying s) ->
    follows s (Reset l) (Plan (p_host s) (p_dev s) (p_open s) (p_busy s) (p_flying s) (filter (fun k => negb (k =? S l)) (p_closed s)) (p_count s) (p_started s) (p_valid s))
| F_sync s : (p_open s = None \/ exists vs, p_open s = Some (0, vs)) ->
    follows s Sync (Plan (p_host s) (p_dev s) None (p_busy s) (p_flying s) (p_closed s) (p_count s) [] (p_started s ++ p_valid s)).
Inductive follow : plan -> list op -> plan -> Prop :=
| F_nil s : follow s [] s
| F_cons s o s1 p s2 : follows s o s1 -> follow s1 p s2 -> follow s (o :: p) s2.

(** At first the data of views of application memory is in the memory of the host. *)
Definition plan0 : plan := Plan (fun v => match views v with App => true | _ => false end) (fun _ => false) None [] [] [] 0 [] [].
Definition good_program (p : list op) : Prop := exists s, follow plan0 p s.

(** Kernels depend only on what they read, and keep the sizes of what they write. *)
Definition kernel_ok (k : kernel) : Prop :=
  (forall m1 m2, (forall v, In v (k_reads k) -> m1 v = m2 v) -> forall w, In w (k_writes k) -> k_fun k m1 w = k_fun k m2 w) /\
  (forall m, (forall v, length (m v) = size v) -> forall w, In w (k_writes k) -> length (k_fun k m w) = size w).
Definition sized (m : memory) : Prop := forall v, length (m v) = size v.
End Rules.

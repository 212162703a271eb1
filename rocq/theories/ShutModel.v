(** Model of how "pvtrace-cli simulate" (cli/main.py 85-161, 205-242) runs: the processes of
    Scene.simulate that put events into a queue, the thread that writes them to the database, and
    the main thread that waits for both.  What the writing thread does with an event is CliModel.v.

    Each step is one operation on a shared object.  queue.put, queue.get, queue.empty, stop.set and
    stop.is_set are taken to be atomic and the queue to be first-in first-out (multiprocessing.Manager
    runs one queue.Queue); time is not modelled, so a get with time-out on an empty queue may give up
    at once, and a put on a full queue waits. *)
From Coq Require Import List Bool Arith.
From Verif Require Import Base Vec TracerModel BundleModel CliModel.
Import ListNotations.
Open Scope nat_scope.

(** What a process still has to do (scene/scene.py 64-92): put an event into the queue, or end a task
    with an exception.  A process goes on with its next task after an exception. *)
Inductive item := Put (m : message) | Fail.
(** Where the writing thread is: before the loop (main.py 97-110), at the test stop.is_set() (114), at
    the test queue.empty() (114), at queue.get(True, 0.1) (121), writing an event (122-156), returned
    (118) or ended by an exception. *)
Inductive reader := Starting | Checking | CheckingEmpty | Getting | Busy (m : message) | Returned | Dead.
(** Where the main thread is: in scene_obj.simulate (231-233), at the loop of 236, at the join of 239
    with stop set (238), after it *)
Inductive caller := Simulating | Draining | Joining | Ended.
(** [raised]: some task has ended with an exception; [stored]: the events written, in order *)
Record run := Run { todo : list (list item); raised : bool; waiting : list message;
                    reader_at : reader; stored : list message; caller_at : caller }.
Definition started (programs : list (list item)) : run := Run programs false [] Starting [] Simulating.
Definition stop_set (c : caller) : bool := match c with Joining | Ended => true | _ => false end.

Section Running.
(** main.py 206: 10000; whether lines 97-110 raise (the database, a wrong --zmq); whether writing a
    message raises (the disk is full, the file stays locked, the renderer fails) *)
Variable capacity : nat.
Variable opens : bool.
Variable unwritable : message -> bool.

(** Steps that get something done *)
Inductive act : run -> run -> Prop :=
| act_put before m rest after r q d w c : length q < capacity ->
    act (Run (before ++ (Put m :: rest) :: after) r q d w c) (Run (before ++ rest :: after) r (q ++ [m]) d w c)
| act_fail before rest after r q d w c :
    act (Run (before ++ (Fail :: rest) :: after) r q d w c) (Run (before ++ rest :: after) true q d w c)
(* scene.py 299: result.get() waits for every task, or raises the exception of one that has ended
   (the first in order; here any) *)
| act_leave ts r q d w : r = true \/ Forall (eq []) ts -> act (Run ts r q d w Simulating) (Run ts r q d w Draining)
| act_stop ts r d w : act (Run ts r [] d w Draining) (Run ts r [] d w Joining)
| act_join ts r q d w : d = Returned \/ d = Dead -> act (Run ts r q d w Joining) (Run ts r q d w Ended)
| act_open ts r q w c : act (Run ts r q Starting w c) (Run ts r q (if opens then Checking else Dead) w c)
| act_get ts r m q w c : act (Run ts r (m :: q) Getting w c) (Run ts r q (Busy m) w c)
| act_write ts r q m w c : unwritable m = false -> act (Run ts r q (Busy m) w c) (Run ts r q Checking (w ++ [m]) c)
| act_die ts r q m w c : unwritable m = true -> act (Run ts r q (Busy m) w c) (Run ts r q Dead w c)
| act_return ts r w c : act (Run ts r [] CheckingEmpty w c) (Run ts r [] Returned w c).
(** Steps of the writing thread that only look; the sleep of the main thread (237) changes nothing *)
Inductive poll : run -> run -> Prop :=
| poll_stop ts r q w c : poll (Run ts r q Checking w c) (Run ts r q (if stop_set c then CheckingEmpty else Getting) w c)
| poll_empty ts r m q w c : poll (Run ts r (m :: q) CheckingEmpty w c) (Run ts r (m :: q) Getting w c)
| poll_get ts r w c : poll (Run ts r [] Getting w c) (Run ts r [] Checking w c).

(** [runs n s s']: from [s] to [s'] with [n] steps that get something done *)
Inductive runs : nat -> run -> run -> Prop :=
| runs_0 s : runs 0 s s
| runs_act n s s1 s2 : runs n s s1 -> act s1 s2 -> runs (S n) s s2
| runs_poll n s s1 s2 : runs n s s1 -> poll s1 s2 -> runs n s s2.
End Running.

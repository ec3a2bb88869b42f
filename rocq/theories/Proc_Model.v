(** internal/runner/process_unix.go, the part of internal/runner/runner.go that runs a
    command (474-534), and the signals of main.go 36-42: one command with everything it
    starts, and [bab] waiting for it.

    [os/exec] (Go 1.25) and the operating system are written from their documentation:
    [Cmd.Wait] first waits for the process, then for the goroutine that watches the
    context, then until every pipe to the command's output is closed; [WaitDelay] is
    zero. A pipe is closed when no process has it open. Process groups, stopping on
    terminal input in the background, and reuse of process numbers are those of POSIX.

    Simplifications: only the command's first process stays in the table after its end
    until it is waited for (others are collected by somebody else at once); descriptors
    are inherited and closed, never sent to others; standard output and standard error
    are the only pipes; a command that cannot be started is left out ([Run_Model]). *)
From Verif Require Import Base.

(** A process. [p_mine]: it is the command's first process or was started by one of its
    processes. [p_kill]: it may be sent signals by [bab] (it runs as the same user).
    [p_out], [p_err]: it has standard output or error of the command open. [p_exit]: it
    is over, with this status. *)
Record proc := MkProc {
  p_group : nat; p_mine : bool; p_kill : bool; p_out : bool; p_err : bool; p_stopped : bool; p_exit : option nat }.
Notation table := (gmap nat proc).

(** Where [runCommandWithWriters] (runner.go 487-534) is told to send the output. *)
Inductive sink := Screen (* os.Stdout, os.Stderr: runner.go 474-481 with output shown *)
                | Nowhere (* nil, which becomes io.Discard: lines 496-505 *)
                | Writer (* a writer of a parallel block *).
(** [os/exec] gives the process a pipe unless the destination is a file. *)
Definition piped (s : sink) : bool := match s with Screen => false | _ => true end.

Inductive cerr := CExit (code : nat) | CCancelled.
(** [Cmd.Run]: waiting for the process; waiting for the watcher's word; waiting for the
    pipes; returned. *)
Inductive phase := Waiting | Reaped (code : nat) | Draining (e : option cerr) | Over (r : option cerr).
(** The goroutine that watches the context. *)
Inductive watch := Watching | Fired | Gone.
(** main.go 36-42: the first signal cancels, after [stop] the next one ends the process. *)
Inductive self := Catching | Default | Dead.

Record world := World {
  w_procs : table; w_lead : nat; w_sink : sink; w_phase : phase; w_watch : watch;
  w_cancelled : bool; w_self : self; w_front : nat (* the terminal's foreground group *) }.

(** ** Processes *)
Definition alive (m : table) (i : nat) (p : proc) : Prop := m !! i = Some p /\ p_exit p = None.
Definition active (m : table) (i : nat) (p : proc) : Prop := alive m i p /\ p_stopped p = false.
(** A number that is nobody's, neither as process nor as group. *)
Definition unused (m : table) (i : nat) : Prop := m !! i = None /\ forall j p, m !! j = Some p -> p_group p <> i.

(** process_unix.go 12-14: [Setpgid] makes the command's process the leader of a new
    group. *)
Definition first_process (lead : nat) : proc := MkProc lead true true true true false None.
Definition started (m : table) (lead : nat) (s : sink) (front : nat) : world :=
  World (<[lead := first_process lead]> m) lead s Waiting Watching false Catching front.

(** process_unix.go 16-25: SIGKILL to the group; also when nobody is left the result is
    nil (lines 21-23). *)
Definition kill_group (lead g : nat) (m : table) : table :=
  map_imap (fun i p =>
    if decide (p_group p = g /\ p_kill p = true)
    then if decide (i = lead)
         then Some (match p_exit p with None => MkProc (p_group p) (p_mine p) (p_kill p) (p_out p) (p_err p) false (Some 137) | Some _ => p end)
         else None
    else Some p) m.

(** A pipe is open while a process has it. *)
Definition pipe_open (m : table) : Prop := exists i p, alive m i p /\ p_mine p = true /\ (p_out p = true \/ p_err p = true).

(** The end of a process. *)
Definition ended (lead i : nat) (code : nat) (p : proc) (m : table) : table :=
  if decide (i = lead) then <[i := MkProc (p_group p) (p_mine p) (p_kill p) (p_out p) (p_err p) false (Some code)]> m else delete i m.

(** runner.go 529-533. *)
Definition run_result (cancelled : bool) (e : option cerr) : option cerr :=
  match e with None => None | Some e => Some (if cancelled then CCancelled else e) end.

(** ** Steps *)
Inductive act :=
(* processes *)
| AFork (i j : nat) | AClose (i : nat) (out err : bool) | ALeave (i g : nat) | AUser (i : nat) | AExit (i code : nat)
| ARead (i : nat) (* terminal input *) | ACont (i : nat) | AFront (g : nat) | AOther (i : nat)
(* signals to bab and cancellation *)
| ASignal | AStopCatching | AQuit
(* the goroutines of bab *)
| AKill | AReap | AReceive | AReturn.

Inductive wstep : act -> world -> world -> Prop :=
(* a new process inherits group, user and descriptors *)
| SFork m l s ph w c sf fr i j p :
    active m i p -> p_mine p = true -> unused m j ->
    wstep (AFork i j) (World m l s ph w c sf fr) (World (<[j := p]> m) l s ph w c sf fr)
| SClose m l s ph w c sf fr i p (o e : bool) :
    active m i p -> p_mine p = true ->
    wstep (AClose i o e) (World m l s ph w c sf fr)
      (World (<[i := MkProc (p_group p) (p_mine p) (p_kill p) (p_out p && negb o) (p_err p && negb e) false None]> m) l s ph w c sf fr)
(* a group of its own, or one that is there *)
| SLeave m l s ph w c sf fr i p g :
    active m i p -> p_mine p = true -> (g = i \/ exists j q, m !! j = Some q /\ p_group q = g) ->
    wstep (ALeave i g) (World m l s ph w c sf fr)
      (World (<[i := MkProc g (p_mine p) (p_kill p) (p_out p) (p_err p) false None]> m) l s ph w c sf fr)
(* another user, as with sudo *)
| SUser m l s ph w c sf fr i p :
    active m i p -> p_mine p = true ->
    wstep (AUser i) (World m l s ph w c sf fr)
      (World (<[i := MkProc (p_group p) (p_mine p) false (p_out p) (p_err p) false None]> m) l s ph w c sf fr)
| SExit m l s ph w c sf fr i p code :
    active m i p ->
    wstep (AExit i code) (World m l s ph w c sf fr) (World (ended l i code p m) l s ph w c sf fr)
(* reading from the terminal: not in the background (SIGTTIN) *)
| SReadFront m l s ph w c sf i p :
    active m i p ->
    wstep (ARead i) (World m l s ph w c sf (p_group p)) (World m l s ph w c sf (p_group p))
| SReadBack m l s ph w c sf fr i p :
    active m i p -> p_group p <> fr ->
    wstep (ARead i) (World m l s ph w c sf fr)
      (World (<[i := MkProc (p_group p) (p_mine p) (p_kill p) (p_out p) (p_err p) true None]> m) l s ph w c sf fr)
| SCont m l s ph w c sf fr i p :
    alive m i p ->
    wstep (ACont i) (World m l s ph w c sf fr)
      (World (<[i := MkProc (p_group p) (p_mine p) (p_kill p) (p_out p) (p_err p) false None]> m) l s ph w c sf fr)
| SFront m l s ph w c sf fr g :
    wstep (AFront g) (World m l s ph w c sf fr) (World m l s ph w c sf g)
(* somebody else's process, with a group of its own or of somebody else *)
| SOther m l s ph w c sf fr i p :
    unused m i -> p_mine p = false -> p_exit p = None -> (p_group p = i \/ exists j q, m !! j = Some q /\ p_group q = p_group p /\ p_mine q = false) ->
    wstep (AOther i) (World m l s ph w c sf fr) (World (<[i := p]> m) l s ph w c sf fr)
| SOtherLeave m l s ph w c sf fr i p g :
    active m i p -> p_mine p = false -> (g = i \/ exists j q, m !! j = Some q /\ p_group q = g /\ p_mine q = false) ->
    wstep (AOther i) (World m l s ph w c sf fr)
      (World (<[i := MkProc g (p_mine p) (p_kill p) (p_out p) (p_err p) false None]> m) l s ph w c sf fr)
(* main.go 36: SIGINT and SIGTERM *)
| SSignal m l s ph w c fr :
    wstep ASignal (World m l s ph w c Catching fr) (World m l s ph w true Catching fr)
| SDeath m l s ph w c fr :
    wstep ASignal (World m l s ph w c Default fr) (World m l s ph w c Dead fr)
(* main.go 39-42 *)
| SStop m l s ph w fr :
    wstep AStopCatching (World m l s ph w true Catching fr) (World m l s ph w true Default fr)
(* parallel.go 190-200: Ctrl-C in a display cancels the block *)
| SQuit m l s ph w c sf fr :
    sf <> Dead -> wstep AQuit (World m l s ph w c sf fr) (World m l s ph w true sf fr)
(* runner.go 490-492: the watcher, when the context is done *)
| SKill m l s ph sf fr :
    sf <> Dead -> wstep AKill (World m l s ph Watching true sf fr) (World (kill_group l l m) l s ph Fired true sf fr)
(* runner.go 529 *)
| SReap m l s w c sf fr p code :
    sf <> Dead -> m !! l = Some p -> p_exit p = Some code ->
    wstep AReap (World m l s Waiting w c sf fr) (World (delete l m) l s (Reaped code) w c sf fr)
| SReceive m l s code w c sf fr :
    sf <> Dead ->
    wstep AReceive (World m l s (Reaped code) w c sf fr)
      (World m l s (Draining (match code with S _ => Some (CExit code) | O => match w with Fired => Some CCancelled | _ => None end end)) Gone c sf fr)
| SReturn m l s e w c sf fr :
    sf <> Dead -> (piped s = true -> ~ pipe_open m) ->
    wstep AReturn (World m l s (Draining e) w c sf fr) (World m l s (Over (run_result c e)) w c sf fr).

Inductive wsteps : list act -> world -> world -> Prop :=
| WNil s : wsteps [] s s
| WCons a l s s' s'' : wstep a s s' -> wsteps l s' s'' -> wsteps (a :: l) s s''.

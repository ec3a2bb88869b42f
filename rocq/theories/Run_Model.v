(** internal/runner/runner.go and internal/runner/parallel.go, function by
    function, for every schedule of the goroutines.

    The code is written as a program tree [prog]: a node [Vis] is one interaction
    with shared state or the outside world, a node [Fork] is the
    goroutine-per-item pattern of [executeParallelInterleaved] and
    [executeParallelTUI] (semaphore, wait group and [firstErrOnce] included).
    Pure code between interactions is ordinary Coq code.

    [pstep] lets any goroutine of the tree make the next step, so an execution is
    any interleaving. All shared state is a function of the history of events.

    Simplifications, besides those noted at each definition: log lines that only
    appear with --verbose are kept only where they say that something is skipped;
    texts of error messages are reduced to constructors; messages sent to the TUI
    program are left out, except lines of output (internal/tui is modelled separately). *)
From Verif Require Import Base Interp_Model Cond_Model Types_Model Path_Model.
From Verif Require Label_Model.

(** ** Vocabulary *)

(** runner.go 25-31: the zero status is [Fresh]. *)
Inductive status := Fresh | Active | Done.
Global Instance status_eq_dec : EqDecision status.
Proof. solve_decision. Defined.

(** A context: its own identifier and those of its ancestors. The context given to
    [Run] is [[0]]. *)
Notation ctx := (list nat).

(** Ghost: how a task execution was reached, innermost first. *)
Inductive frame :=
| FDep (parent : str)                                  (* as a dependency of [parent] *)
| FRef (parent : str) (path : list nat) (r : task_run) (* as run item [path] of [parent] *)
| FBlock (parent : str) (path : list nat) (o : par_opts)
| FPre (parent : str) (path : list nat).               (* by preResolveDeps *)
Notation scope := (list frame).

(** A pair of writers, for standard output and standard error (runner.go 135, the arguments
    [stdout] and [stderr]): what each line passes through, innermost first. [[]]: both are
    nil, the line goes to bab's own standard output or error. [WPrefix]: two [PrefixWriter]s
    with this label and label width (parallel.go 151-152; colours are left out). [WKey]: a
    [KeyLineWriter], which sends lines to the TUI under [pathToKey] of this path
    (parallel.go 226-229, 250); it takes both streams. *)
Inductive wframe :=
| WPrefix (label : str) (width : nat)
| WKey (path : list nat).
Notation dest := (list wframe).

(** Everything handed to the operating system for one command (runner.go 487-534).
    [x_task], [x_path], [x_scope] are ghosts: which item this is. [x_out]: where its output
    goes if it is shown (runner.go 328-341). *)
Record proc_info := Proc {
  x_task : str; x_path : list nat; x_scope : scope;
  x_cmd : str; x_environ : list str; x_dir : str;
  x_show : bool; x_stdin : bool; x_ctx : ctx; x_out : dest }.

(** The errors a run can end with. [ln] is the line given to the interpolation context that reports
    the error: that of the task (runner.go 159, 209, 214) or of the item (runner.go 244, 300, 351,
    parallel.go 313). The file named with it is always [r.BabfilePath], the root Babfile, so it is
    not stored; Loc_Model has the text of the message. *)
Inductive rerr :=
| RFuel                                   (* not in the code; proved unreachable *)
| RNotFound (n : str)
| RCircular (chain : list str)
| RTaskWhen (n : str) (ln : nat) (e : ierr)
| RItemWhen (t : str) (i : nat) (ln : nat) (e : ierr)
| RVars (ln : nat) (e : ierr)
| REnv (ln : nat) (e : ierr)
| RInterp (ln : nat) (e : ierr)
| REmptyCmd (t : str)
| RDirInterp (t : str) (ln : nat) (e : ierr)
| RDirStat (t : str) (d : str)
| RCmdFailed (t : str) (cmd : str)
| RPromptErr (t : str) (var : str)
| RCancelled
| RNoItems (t : str)
| RUnsupported
| RUnknownRef (n : str)
| RTui
| RDep (d : str) (e : rerr)
| RPreDep (d : str) (e : rerr)
| RItem (j : nat) (e : rerr).

(** A Go [error] result. *)
Notation outcome := (option rerr).

Inductive statres := SMissing | SError | SNotDir | SDir.

Inductive why := ByPlatform | ByWhen.

(** What a dry run says it would do: runner.go 251-252 (prompt), 263-264 (parallel block), 315-318
    (command; of its environment only the size is shown) and parallel.go 304-307 (task), 318-319 (log). *)
Inductive would :=
| WCmd (cmd : str) (env : nat) (dir : str)
| WTask (n : str)
| WLog (msg level : str)
| WPrompt (var type message : str)
| WPar (items : nat) (mode : str).

(** What the goroutines ask of shared state and of the outside world. The string
    (and path) arguments named [t] and [p] are ghosts saying for whom. *)
Inductive eff :=
| EClaim (n : str) (sc : scope)           (* [sc]: ghost, from where *)
| EDone (n : str)
| EGet (n : str)
| ESnapshot
| ECheck (t : str) (i : nat) (c : ctx)     (* select on ctx.Done() *)
| EOrder (m : gmap str str)                (* iteration order of a range *)
| EAlloc (t : str) (p : list nat) (m : gmap str str)  (* a new vars map *)
| ERead (t : str) (p : list nat) (l : nat) (* read a vars map *)
| EWrite (t : str) (p : list nat) (l : nat) (k v : str)
| EStat (t : str) (p : list nat) (d : str)
| ESkipTask (n : str)
| ESkip (t : str) (p : list nat) (w : why)
| EHeader (n : str) (main : bool) (d : dest)
| EEcho (t : str) (p : list nat) (cmd : str) (d : dest)
| EStart (x : proc_info)
| EEnd (t : str) (p : list nat)
| EPrompt (t : str) (p : list nat) (q : prompt_run)
| ELog (t : str) (p : list nat) (text level : str) (d : dest)
| ESummary (t : str) (p : list nat) (fine : list bool) (d : dest) (* which items succeeded *)
| EWould (t : str) (p : list nat) (w : would) (* a line of a dry run *)
| ENewCtx (parent : ctx)
| ETui
| ERet (t : str) (p : list nat) (r : outcome). (* ghost: item [p] of [t] is over, with this error *)

Definition resp (e : eff) : Type :=
  match e with
  | EClaim _ _ | EGet _ => status
  | ESnapshot => gmap str status
  | ECheck _ _ _ => bool
  | EOrder _ => list str
  | EAlloc _ _ _ => nat
  | ERead _ _ _ => gmap str str
  | EStat _ _ _ => statres
  | EStart _ => bool
  | EEnd _ _ => bool
  | EPrompt _ _ _ => option str
  | ENewCtx _ => nat
  | ETui => bool
  | _ => unit
  end.

(** What happened, with the answer. *)
Inductive event :=
| OClaim (n : str) (sc : scope) (s : status)
| ODone (n : str)
| OGet (n : str) (s : status)
| OSnapshot (m : gmap str status)
| OCheck (t : str) (i : nat) (c : ctx) (b : bool)
| OOrder (m : gmap str str) (l : list str)
| OAlloc (t : str) (p : list nat) (m : gmap str str) (l : nat)
| ORead (t : str) (p : list nat) (l : nat) (m : gmap str str)
| OWrite (t : str) (p : list nat) (l : nat) (k v : str)
| OStat (t : str) (p : list nat) (d : str) (s : statres)
| OSkipTask (n : str)
| OSkip (t : str) (p : list nat) (w : why)
| OHeader (n : str) (main : bool) (d : dest)
| OEcho (t : str) (p : list nat) (cmd : str) (d : dest)
| OStart (x : proc_info) (started : bool)
| OEnd (t : str) (p : list nat) (ok : bool)
| OPrompt (t : str) (p : list nat) (q : prompt_run) (a : option str)
| OLog (t : str) (p : list nat) (text level : str) (d : dest)
| OSummary (t : str) (p : list nat) (fine : list bool) (d : dest)
| OWould (t : str) (p : list nat) (w : would)
| ONewCtx (parent : ctx) (i : nat)
| OTui (ok : bool)
| ORet (t : str) (p : list nat) (r : outcome)
(* goroutines of a block *)
| OSlot (t : str) (p : list nat) (j : nat)
| OGiveUp (t : str) (p : list nat) (j : nat) (c : ctx)
| OReturn (t : str) (p : list nat) (j : nat) (r : outcome)
| OFree (t : str) (p : list nat) (j : nat)
| OJoin (t : str) (p : list nat)
(* from outside: interrupt, or quitting the TUI *)
| OCancel (i : nat).

Definition obs (e : eff) : resp e -> event :=
  match e with
  | EClaim n sc => fun s => OClaim n sc s
  | EDone n => fun _ => ODone n
  | EGet n => fun s => OGet n s
  | ESnapshot => fun m => OSnapshot m
  | ECheck t i c => fun b => OCheck t i c b
  | EOrder m => fun l => OOrder m l
  | EAlloc t p m => fun l => OAlloc t p m l
  | ERead t p l => fun m => ORead t p l m
  | EWrite t p l k v => fun _ => OWrite t p l k v
  | EStat t p d => fun s => OStat t p d s
  | ESkipTask n => fun _ => OSkipTask n
  | ESkip t p w => fun _ => OSkip t p w
  | EHeader n m d => fun _ => OHeader n m d
  | EEcho t p c d => fun _ => OEcho t p c d
  | EStart x => fun b => OStart x b
  | EEnd t p => fun b => OEnd t p b
  | EPrompt t p q => fun a => OPrompt t p q a
  | ELog t p x l d => fun _ => OLog t p x l d
  | ESummary t p l d => fun _ => OSummary t p l d
  | EWould t p w => fun _ => OWould t p w
  | ENewCtx c => fun i => ONewCtx c i
  | ETui => fun b => OTui b
  | ERet t p r => fun _ => ORet t p r
  end.

(** A history, newest event first. *)
Notation hist := (list event).

(** ** Shared state, as a function of the history *)

(** parallel.go 34-69: the map of statuses. *)
Fixpoint status_of (h : hist) (n : str) : status :=
  match h with
  | [] => Fresh
  | OClaim m _ Fresh :: r => if decide (m = n) then Active else status_of r n
  | ODone m :: r => if decide (m = n) then Done else status_of r n
  | _ :: r => status_of r n
  end.

(** The vars maps: map 0 is [Runner.GlobalVars], the others are numbered in order
    of allocation. *)
Fixpoint allocs (h : hist) : nat :=
  match h with
  | [] => 0
  | OAlloc _ _ _ _ :: r => S (allocs r)
  | _ :: r => allocs r
  end.

Fixpoint heap_of (g : gmap str str) (h : hist) (l : nat) : gmap str str :=
  match h with
  | [] => g
  | OAlloc _ _ m l' :: r => if decide (l' = l) then m else heap_of g r l
  | OWrite _ _ l' k v :: r => if decide (l' = l) then <[k := v]> (heap_of g r l) else heap_of g r l
  | _ :: r => heap_of g r l
  end.

(** Contexts: cancelled when it or an ancestor was. *)
Definition cancelled (h : hist) (c : ctx) : Prop := exists i, i ∈ c /\ OCancel i ∈ h.

Fixpoint cancelledb (h : hist) (c : ctx) : bool :=
  match h with
  | [] => false
  | OCancel i :: r => bool_decide (i ∈ c) || cancelledb r c
  | _ :: r => cancelledb r c
  end.

Fixpoint contexts (h : hist) : nat :=
  match h with
  | [] => 0
  | ONewCtx _ _ :: r => S (contexts r)
  | _ :: r => contexts r
  end.

(** Which answers are possible. What is left open ([True]) is up to the outside
    world: exit codes, answers to prompts, directories, the terminal.
    [OStart]: [exec.Cmd.Start] refuses to start once its context is done. *)
Definition allowed (g : gmap str str) (h : hist) (ev : event) : Prop :=
  match ev with
  | OClaim n _ s | OGet n s => s = status_of h n
  | OSnapshot m => forall n, m !! n = match status_of h n with Fresh => None | s => Some s end
  | OCheck _ _ c b => b = cancelledb h c
  | OOrder m l => l ≡ₚ (map_to_list m).*1
  | OAlloc _ _ _ l => l = S (allocs h)
  | ORead _ _ l m => m = heap_of g h l
  | OStart x b => cancelledb h (x_ctx x) = true -> b = false
  | ONewCtx _ i => i = S (contexts h)
  | OGiveUp _ _ _ c => cancelledb h c = true
  | _ => True
  end.

(** ** Programs *)
Inductive cstat := Waiting | Running | Reported | Released | Skipped.
Global Instance cstat_eq_dec : EqDecision cstat.
Proof. solve_decision. Defined.

Inductive prog :=
| Ret (r : outcome)
| Vis (e : eff) (k : resp e -> prog)
| Fork (t : str) (p : list nat) (lim : nat) (c : ctx) (chs : list (cstat * prog))
    (log : list (nat * outcome)) (k : list (nat * outcome) -> prog).

Fixpoint bind (p : prog) (f : outcome -> prog) : prog :=
  match p with
  | Ret r => f r
  | Vis e k => Vis e (fun r => bind (k r) f)
  | Fork t pa lim c chs log k => Fork t pa lim c chs log (fun l => bind (k l) f)
  end.

(** [if err := p; err != nil { return wrap err }; k]. *)
Definition and_then (p : prog) (wrap : rerr -> rerr) (k : prog) : prog :=
  bind p (fun r => match r with Some e => Ret (Some (wrap e)) | None => k end).

(** The semaphore of a block: slots in use (parallel.go 118-120, 143-150). *)
Definition active (chs : list (cstat * prog)) : nat :=
  length (filter (fun c => c.1 = Running \/ c.1 = Reported) chs).

Definition finished (c : cstat * prog) : Prop := c.1 = Released \/ c.1 = Skipped.

(** One step of some goroutine. In a block (parallel.go 137-166 and 219-270):
    a waiting item takes a slot ([ps_slot]) or, when the context is done, returns
    without a trace ([ps_giveup], only if there is a semaphore); an item that
    returned reports its error to [firstErrOnce] ([ps_return]) and afterwards
    releases its slot ([ps_free], the deferred receive and [wg.Done]); when all are
    through, [wg.Wait] returns ([ps_join]). [lim = 0] means no semaphore. Starting
    all goroutines at once is a simplification without consequence: an item that
    is spawned later simply takes its first step later. *)
Inductive pstep : prog -> event -> prog -> Prop :=
| ps_vis e k r : pstep (Vis e k) (obs e r) (k r)
| ps_child t pa lim c chs log k j p ev p' :
    chs !! j = Some (Running, p) -> pstep p ev p' ->
    pstep (Fork t pa lim c chs log k) ev (Fork t pa lim c (<[j := (Running, p')]> chs) log k)
| ps_slot t pa lim c chs log k j p :
    chs !! j = Some (Waiting, p) -> lim = 0 \/ active chs < lim ->
    pstep (Fork t pa lim c chs log k) (OSlot t pa j) (Fork t pa lim c (<[j := (Running, p)]> chs) log k)
| ps_giveup t pa lim c chs log k j p :
    chs !! j = Some (Waiting, p) -> lim <> 0 ->
    pstep (Fork t pa lim c chs log k) (OGiveUp t pa j c) (Fork t pa lim c (<[j := (Skipped, p)]> chs) log k)
| ps_return t pa lim c chs log k j r :
    chs !! j = Some (Running, Ret r) ->
    pstep (Fork t pa lim c chs log k) (OReturn t pa j r)
      (Fork t pa lim c (<[j := (Reported, Ret r)]> chs) (log ++ [(j, r)]) k)
| ps_free t pa lim c chs log k j p :
    chs !! j = Some (Reported, p) ->
    pstep (Fork t pa lim c chs log k) (OFree t pa j) (Fork t pa lim c (<[j := (Released, p)]> chs) log k)
| ps_join t pa lim c chs log k :
    Forall finished chs -> pstep (Fork t pa lim c chs log k) (OJoin t pa) (k log).

(** A step of a run: of a goroutine, or a cancellation from outside. *)
Inductive cstep (g : gmap str str) : hist * prog -> hist * prog -> Prop :=
| cs_prog h p ev p' : pstep p ev p' -> allowed g h ev -> cstep g (h, p) (ev :: h, p')
| cs_cancel h p i : cstep g (h, p) (OCancel i :: h, p).

(** ** The runner *)

(** runner.go 33-43 with the environment bab runs in: [os.Getenv], [os.Environ],
    [runtime.GOOS], whether stderr is a terminal. [k_vars] is the content of
    [GlobalVars] when the run starts. *)
Record config := Config {
  k_dry : bool; k_vars : gmap str str; k_env : smap; k_silent : option bool; k_output : option bool;
  k_dir : str; k_getenv : str -> str; k_environ : list str; k_os : str; k_terminal : bool }.

(** Arguments that are passed along with every task (runner.go 135). [a_out]: [stdout]
    and [stderr]; [a_tui]: [pctx], of which only the path varies (parallel.go 21-24). *)
Record args := Args {
  a_main : bool; a_silent : option bool; a_output : option bool;
  a_out : dest; a_nocolor : bool; a_tui : option (list nat); a_ctx : ctx; a_scope : scope }.
(** [stdout != nil] and [pctx != nil]. *)
Definition a_piped (a : args) : bool := match a_out a with [] => false | _ => true end.
Definition a_in_tui (a : args) : bool := match a_tui a with None => false | Some _ => true end.

(** runner.go 126-133. *)
Fixpoint first_non_nil (l : list (option bool)) : option bool :=
  match l with
  | [] => None
  | Some b :: _ => Some b
  | None :: r => first_non_nil r
  end.
(** runner.go 108-115 and 117-124. *)
Definition is_silent (l : list (option bool)) : bool := default false (first_non_nil l).
Definition is_output (l : list (option bool)) : bool := default true (first_non_nil l).

(** The [GetLine], [GetWhen] and [ShouldRunOnPlatform] methods of the five item types. *)
Definition item_line (it : run_item) : nat :=
  match it with RCmd c => c_line c | RTask r => r_line r | RLog g => l_line g | RPrompt p => p_line p | RPar o _ => q_line o end.
Definition item_when (it : run_item) : str :=
  match it with RCmd c => c_when c | RTask r => r_when r | RLog l => l_when l | RPrompt p => p_when p | RPar o _ => q_when o end.
Definition item_platforms (it : run_item) : list str :=
  match it with
  | RCmd c => c_platforms c | RTask r => r_platforms r | RLog l => l_platforms l
  | RPrompt p => p_platforms p | RPar o _ => q_platforms o end.

(** runner.go 551-578: follow the first running dependency. *)
Fixpoint build_chain (fuel : nat) (current : str) (tasks : taskmap) (st : gmap str status)
    (chain : list str) (last : str) (seen : gset str) : list str :=
  match fuel with
  | 0 => chain
  | S fuel' =>
      if decide (last ∈ seen) then chain
      else match tasks !! last with
           | None => chain
           | Some t =>
               match filter (fun d => st !! d = Some Active) (t_deps t) with
               | [] => chain
               | d :: _ =>
                   if decide (d = current) then chain ++ [d]
                   else build_chain fuel' current tasks st (chain ++ [d]) d ({[last]} ∪ seen)
               end
           end
  end.
Definition build_chain_slice (current : str) (tasks : taskmap) (st : gmap str status) : list str :=
  build_chain (2 + size tasks) current tasks st [current] current ∅.

(** runner.go 411-425 on the keys in [order]. *)
Fixpoint interpolate_env (getenv : str -> str) (vars : gmap str str) (env : gmap str str) (order : list str)
    : res ierr (gmap str str) :=
  match order with
  | [] => Ok ∅
  | k :: r =>
      match interpolate getenv vars (default [] (env !! k)) with
      | Err e => Err e
      | Ok v => match interpolate_env getenv vars env r with Err e => Err e | Ok m => Ok (<[k := v]> m) end
      end
  end.

(** runner.go 384-392 and 395-403. *)
Fixpoint interpolate_list (getenv : str -> str) (vars : gmap str str) (l : list str) : res ierr (list str) :=
  match l with
  | [] => Ok []
  | x :: r =>
      match interpolate getenv vars x with
      | Err e => Err e
      | Ok v => match interpolate_list getenv vars r with Err e => Err e | Ok vs => Ok (v :: vs) end
      end
  end.

(** runner.go 365-409. *)
Definition interpolate_prompt (getenv : str -> str) (vars : gmap str str) (p : prompt_run) : res ierr prompt_run :=
  let opt (s : str) : res ierr str := match s with [] => Ok [] | _ => interpolate getenv vars s end in
  match interpolate getenv vars (p_message p) with
  | Err e => Err e
  | Ok msg =>
  match opt (p_default p) with
  | Err e => Err e
  | Ok def =>
  match opt (p_placeholder p) with
  | Err e => Err e
  | Ok ph =>
  match interpolate_list getenv vars (p_options p) with
  | Err e => Err e
  | Ok options =>
  match interpolate_list getenv vars (p_defaults p) with
  | Err e => Err e
  | Ok defaults =>
      Ok (PromptRun (p_line p) (p_prompt p) (p_type p) msg (p_platforms p) def defaults options ph
            (p_validate p) (p_min p) (p_max p) (p_confirm p) (p_when p))
  end end end end end.

(** runner.go 508-521: [os.Environ()], colour hints, then the variables of the
    command in iteration order (env.go 15-22). When neither applies [cmd.Env]
    stays nil, which means [os.Environ()]. *)
Definition command_environ (environ : list str) (piped nocolor : bool) (env : gmap str str) (order : list str) : list str :=
  environ ++
  (if piped then (if nocolor then [lit "TERM=dumb"; lit "NO_COLOR=1"] else [lit "FORCE_COLOR=1"]) else []) ++
  map (fun k => k ++ "="%char :: default [] (env !! k)) order.

Definition with_scope (a : args) (f : frame) : scope := f :: a_scope a.

Section Runner.
  Context (k : config) (tasks : taskmap).

  (** runner.go 411-425 with its early return, then [f] on the result. *)
  Definition interpolate_env_then (ln : nat) (vars : gmap str str) (env : gmap str str) (f : gmap str str -> prog) : prog :=
    if decide (env = ∅) then f env
    else Vis (EOrder env) (fun order =>
      match interpolate_env (k_getenv k) vars env order with
      | Err e => Ret (Some (REnv ln e))
      | Ok m => f m
      end).

  (** runner.go 427-465. *)
  Definition resolve_dir_then (t : task) (pa : list nat) (ln : nat) (cmddir : str) (vars : gmap str str) (f : str -> prog) : prog :=
    let basedir := dir (t_source t) in
    let d1 := match cmddir with [] => t_dir t | _ => cmddir end in
    let d2 := match d1 with [] => k_dir k | _ => d1 end in
    match d2 with
    | [] => f basedir
    | _ =>
        match interpolate (k_getenv k) vars d2 with
        | Err e => Ret (Some (RDirInterp (t_name t) ln e))
        | Ok d3 =>
            let d := clean (if is_abs d3 then d3 else join2 basedir d3) in
            Vis (EStat (t_name t) pa d) (fun s =>
              match s with
              | SDir => f d
              | _ => Ret (Some (RDirStat (t_name t) d))
              end)
        end
    end.

  (** runner.go 295-343 with 467-534: silent, output, environment and directory,
      then the process itself: started, and ended. *)
  Definition execute_command (c : cmd_run) (t : task) (pa : list nat) (l : nat) (env : gmap str str) (a : args) : prog :=
    match trim_space (c_cmd c) with
    | [] => Ret (Some (REmptyCmd (t_name t)))
    | _ =>
        Vis (ERead (t_name t) pa l) (fun vars =>
        match interpolate (k_getenv k) vars (c_cmd c) with
        | Err e => Ret (Some (RInterp (c_line c) e))
        | Ok cmd =>
            interpolate_env_then (c_line c) vars (smap_get (merge_maps (Some env) (c_env c))) (fun cmdenv =>
            resolve_dir_then t pa (c_line c) (c_dir c) vars (fun d =>
            if k_dry k then Vis (EWould (t_name t) pa (WCmd cmd (size cmdenv) d)) (fun _ => Ret None)
            else
              let show := is_output [c_output c; a_output a; t_output t; k_output k] in
              let go :=
                Vis (EOrder cmdenv) (fun order =>
                let x := Proc (t_name t) pa (a_scope a) cmd
                           (command_environ (k_environ k) (a_piped a && show) (a_nocolor a) cmdenv order) d
                           show (negb (a_piped a) && show) (a_ctx a) (a_out a) in
                Vis (EStart x) (fun started =>
                if started then
                  Vis (EEnd (t_name t) pa) (fun ok =>
                  if ok then Ret None else Ret (Some (RCmdFailed (t_name t) cmd)))
                else Ret (Some (RCmdFailed (t_name t) cmd)))) in
              if is_silent [c_silent c; a_silent a; t_silent t; k_silent k] then go
              else Vis (EEcho (t_name t) pa cmd (a_out a)) (fun _ => go)))
        end)
    end.

  Section Calls.
    (** The recursive call of [runTask]. *)
    Context (rt : str -> args -> prog).

    (** parallel.go 297-331. *)
    Definition execute_run_item (it : run_item) (t : task) (pa : list nat) (l : nat) (env : gmap str str) (a : args) : prog :=
      match it with
      | RCmd c => execute_command c t pa l env a
      | RTask r =>
          if k_dry k then Vis (EWould (t_name t) pa (WTask (r_task r))) (fun _ => Ret None)
          else rt (r_task r)
                 (Args false (first_non_nil [r_silent r; a_silent a]) (first_non_nil [r_output r; a_output a])
                    (a_out a) (a_nocolor a) (a_tui a) (a_ctx a) (with_scope a (FRef (t_name t) pa r)))
      | RLog lg =>
          Vis (ERead (t_name t) pa l) (fun vars =>
          match interpolate (k_getenv k) vars (l_log lg) with
          | Err e => Ret (Some (RInterp (l_line lg) e))
          | Ok text =>
              if k_dry k then Vis (EWould (t_name t) pa (WLog text (l_level lg))) (fun _ => Ret None)
              else Vis (ELog (t_name t) pa text (l_level lg) (a_out a)) (fun _ => Ret None)
          end)
      | _ => Ret (Some RUnsupported)
      end.

    (** parallel.go 333-358: the inner loop, with the set [seen]. *)
    Fixpoint pre_deps (deps : list str) (seen : gset str) (a : args) (kk : gset str -> prog) : prog :=
      match deps with
      | [] => kk seen
      | d :: r =>
          if decide (d ∈ seen) then pre_deps r seen a kk
          else Vis (EGet d) (fun s =>
            match s with
            | Done => pre_deps r ({[d]} ∪ seen) a kk
            | _ => and_then (rt d a) (RPreDep d) (pre_deps r ({[d]} ∪ seen) a kk)
            end)
      end.
    Fixpoint pre_resolve (items : list run_item) (seen : gset str) (a : args) : prog :=
      match items with
      | [] => Ret None
      | RTask r :: rest =>
          match tasks !! r_task r with
          | None => Ret (Some (RUnknownRef (r_task r)))
          | Some t => pre_deps (t_deps t) seen a (fun seen' => pre_resolve rest seen' a)
          end
      | _ :: rest => pre_resolve rest seen a
      end.

    (** [firstErrOnce]: the first error reported (parallel.go 156-160, 264-268). *)
    Fixpoint first_err (log : list (nat * outcome)) : outcome :=
      match log with
      | [] => None
      | (j, Some e) :: _ => Some (RItem j e)
      | _ :: r => first_err r
      end.

    (** The goroutines of a block (parallel.go 134-165, 218-270); [sub j] are the
        arguments given to item [j]. *)
    Definition fork (o : par_opts) (items : list run_item) (t : task) (pa : list nat) (l : nat) (env : gmap str str)
        (c : ctx) (sub : nat -> args) (kk : list (nat * outcome) -> prog) : prog :=
      Fork (t_name t) pa (Z.to_nat (q_limit o)) c
        (imap (fun j it => (Waiting, execute_run_item it t (pa ++ [j]) l env (sub j))) items) [] kk.

    (** parallel.go 116-166: every item writes through prefix writers of its own to
        where the block writes; no TUI below. *)
    Definition execute_interleaved (o : par_opts) (items : list run_item) t pa l env (a : args) : prog :=
      let width := Label_Model.max_label (Label_Model.block_labels o items) in
      fork o items t pa l env (a_ctx a)
        (fun j => Args false (a_silent a) (a_output a) (WPrefix (Label_Model.item_label o items j) width :: a_out a)
                    (a_nocolor a) None (a_ctx a) (a_scope a))
        (fun log => Ret (first_err log)).

    (** [itemErrs[j] == nil] (parallel.go 216, 237, 254; output.go 93). *)
    Definition succeeded (log : list (nat * outcome)) (j : nat) : bool :=
      existsb (fun x => (x.1 =? j) && match x.2 with None => true | Some _ => false end) log.

    (** parallel.go 168-295: the outermost TUI block has its own context, which
        quitting the TUI cancels. The deferred [workCancel] (line 197) is left out:
        it runs when no goroutine of the block is left. The summary (lines 282-292)
        goes to standard error or to the parent's key (output.go 87-118; of an error
        it shows further whether it is [context.Canceled], which is left out). *)
    Definition execute_tui (o : par_opts) (items : list run_item) t pa l env (a : args) : prog :=
      let base := default [] (a_tui a) in
      let sub c j := Args false (a_silent a) (a_output a) [WKey (base ++ [j])] (a_nocolor a) (Some (base ++ [j])) c (a_scope a) in
      let finish (log : list (nat * outcome)) :=
        if is_silent [a_silent a; t_silent t; k_silent k] then Ret (first_err log)
        else Vis (ESummary (t_name t) pa (imap (fun j _ => succeeded log j) items)
                    (match a_tui a with None => [] | Some path => [WKey path] end))
               (fun _ => Ret (first_err log)) in
      match a_tui a with
      | Some _ => fork o items t pa l env (a_ctx a) (sub (a_ctx a)) finish
      | None =>
          Vis (ENewCtx (a_ctx a)) (fun i =>
          Vis ETui (fun ok =>
          if (ok : bool) then fork o items t pa l env (i :: a_ctx a) (sub (i :: a_ctx a)) finish
          else Ret (Some RTui)))
      end.

    (** parallel.go 71-114. *)
    Definition is_tui_mode (mode : str) : bool := bool_decide (mode = lit "grouped" \/ mode = lit "tabs").
    Definition execute_parallel (o : par_opts) (items : list run_item) (t : task) (pa : list nat) (l : nat)
        (env : gmap str str) (a : args) : prog :=
      let a1 := Args false
                  (match q_silent o with None => a_silent a | s => s end)
                  (match q_output o with None => a_output a | s => s end)
                  (a_out a) (a_nocolor a || negb (default true (q_color o))) (a_tui a) (a_ctx a)
                  (with_scope a (FBlock (t_name t) pa o)) in
      let pre := Args false (a_silent a1) (a_output a1) (a_out a1) (a_nocolor a1) (a_tui a1) (a_ctx a1)
                   (with_scope a1 (FPre (t_name t) pa)) in
      and_then (pre_resolve items ∅ pre) id
        (if k_dry k then Vis (EWould (t_name t) pa (WPar (length items) (q_mode o))) (fun _ => Ret None)
         else if is_tui_mode (q_mode o) && k_terminal k && (negb (a_piped a) || a_in_tui a)
              then execute_tui o items t pa l env a1
              else execute_interleaved o items t pa l env a1).

    (** One item of the loop of [executeTask], runner.go 227-279, after the checks. *)
    Definition execute_item (it : run_item) (t : task) (i : nat) (l : nat) (env : gmap str str) (a : args) : prog :=
      match it with
      | RPrompt p =>
          Vis (ERead (t_name t) [i] l) (fun vars =>
          match interpolate_prompt (k_getenv k) vars p with
          | Err e => Ret (Some (RInterp (p_line p) e))
          | Ok q =>
              if k_dry k then Vis (EWould (t_name t) [i] (WPrompt (p_prompt q) (p_type q) (p_message q))) (fun _ => Ret None)
              else Vis (EPrompt (t_name t) [i] q) (fun answer =>
                match answer with
                | None => Ret (Some (RPromptErr (t_name t) (p_prompt p)))
                | Some v => Vis (EWrite (t_name t) [i] l (p_prompt p) v) (fun _ => Ret None)
                end)
          end)
      | RPar o items =>
          if k_dry k then Vis (EWould (t_name t) [i] (WPar (length items) (q_mode o))) (fun _ => Ret None)
          else Vis (ERead (t_name t) [i] l) (fun vars =>
               Vis (EAlloc (t_name t) [i] vars) (fun l' =>
               execute_parallel o items t [i] l' env a))
      | _ => execute_run_item it t [i] l env a
      end.

    (** runner.go 223-290: the loop, from item [i] on, and the final test. *)
    Fixpoint execute_items (items : list run_item) (t : task) (i executed skipped : nat) (l : nat) (env : gmap str str)
        (a : args) : prog :=
      match items with
      | [] =>
          match executed, skipped with
          | 0, 0 => Ret (Some (RNoItems (t_name t)))
          | _, _ => Ret None
          end
      | it :: rest =>
          Vis (ECheck (t_name t) i (a_ctx a)) (fun done =>
          if done then Ret (Some RCancelled)
          else if negb (matches_platform (item_platforms it) (k_os k)) then
            Vis (ESkip (t_name t) [i] ByPlatform) (fun _ => execute_items rest t (S i) executed skipped l env a)
          else
            let go := bind (execute_item it t i l env a) (fun r =>
                        Vis (ERet (t_name t) [i] r) (fun _ =>
                        match r with
                        | Some e => Ret (Some e)
                        | None => execute_items rest t (S i) (S executed) skipped l env a
                        end)) in
            match item_when it with
            | [] => go
            | w =>
                Vis (ERead (t_name t) [i] l) (fun vars =>
                match evaluate (k_getenv k) vars w with
                | Err e => Ret (Some (RItemWhen (t_name t) i (item_line it) e))
                | Ok true => go
                | Ok false =>
                    Vis (ESkip (t_name t) [i] ByWhen) (fun _ => execute_items rest t (S i) executed (S skipped) l env a)
                end)
            end)
      end.

    (** runner.go 204-222: a task without [vars] shares the global map. *)
    Definition execute_task (t : task) (a : args) : prog :=
      let with_vars (l : nat) (vars : gmap str str) :=
        interpolate_env_then (t_line t) vars (smap_get (merge_maps (k_env k) (t_env t))) (fun env =>
        execute_items (t_run t) t 0 0 0 l env a) in
      match t_vars t with
      | None => Vis (ERead (t_name t) [] 0) (fun vars => with_vars 0 vars)
      | Some vs =>
          Vis (EOrder vs) (fun order =>
          Vis (ERead (t_name t) [] 0) (fun globals =>
          match resolve_vars (k_getenv k) (Some vs) (Some globals) order with
          | Err e => Ret (Some (RVars (t_line t) e))
          | Ok m => Vis (EAlloc (t_name t) [] m) (fun l => with_vars l m)
          end))
      end.

    (** runner.go 186-191. *)
    Fixpoint run_deps (n : str) (deps : list str) (a : args) (kk : prog) : prog :=
      match deps with
      | [] => kk
      | d :: r =>
          and_then (rt d (Args false None None (a_out a) (a_nocolor a) (a_tui a) (a_ctx a) (with_scope a (FDep n))))
            (RDep d) (run_deps n r a kk)
      end.
  End Calls.

  (** runner.go 135-202. The fuel bounds the nesting of calls; it is shown never
      to run out. *)
  Fixpoint run_task (fuel : nat) (n : str) (a : args) : prog :=
    match fuel with
    | 0 => Ret (Some RFuel)
    | S fuel' =>
        Vis (EClaim n (a_scope a)) (fun s =>
        match s with
        | Done => Ret None
        | Active => Vis ESnapshot (fun m => Ret (Some (RCircular (build_chain_slice n tasks m))))
        | Fresh =>
            match tasks !! n with
            | None => Ret (Some (RNotFound n))
            | Some t =>
                let body :=
                  let rest :=
                    run_deps (run_task fuel') n (t_deps t) a
                      (let finish := Vis (EDone n) (fun _ => Ret None) in
                       match t_run t with
                       | [] => finish
                       | _ => and_then (execute_task (run_task fuel') t a) id finish
                       end) in
                  if negb (k_dry k) && negb (is_silent [a_silent a; t_silent t; k_silent k])
                  then Vis (EHeader n (a_main a) (a_out a)) (fun _ => rest) else rest in
                match t_when t with
                | [] => body
                | w =>
                    Vis (ERead n [] 0) (fun globals =>
                    match evaluate (k_getenv k) globals w with
                    | Err e => Ret (Some (RTaskWhen n (t_line t) e))
                    | Ok true => body
                    | Ok false => Vis (ESkipTask n) (fun _ => Vis (EDone n) (fun _ => Ret None))
                    end)
                end
            end
        end)
    end.

  (** runner.go 97-106. *)
  Definition run_with_tasks (n : str) : prog :=
    run_task (2 + size tasks) n (Args true None None [] false None [0] []).
End Runner.

(** ** Where bab's own lines go *)
Inductive stream := SOut | SErr.
(** runner.go 171-184 (task name), 321-327 (command), parallel.go 312-325 (log item: the
    standard output of a block, or else the logger), 282-292 (summary of a block; output.go
    113-118) and the logger, which main.go 30-34 gives standard error (dry run): the stream
    written to, or to whose writer. What a command itself writes is not bab's own. *)
Definition own_line (ev : event) : option (stream * dest) :=
  match ev with
  | OHeader _ _ d | OEcho _ _ _ d | OSummary _ _ _ d => Some (SErr, d)
  | OLog _ _ _ _ [] => Some (SErr, [])
  | OLog _ _ _ _ d => Some (SOut, d)
  | OWould _ _ _ => Some (SErr, [])
  | _ => None
  end.
(** runner.go 536-549, root.go 68-72: the logger shows debug lines only with --verbose;
    a block shows what it is given. *)
Definition log_visible (verbose : bool) (level : str) (d : dest) : bool :=
  match d with [] => verbose || negb (bool_decide (level = lit "debug")) | _ => true end.

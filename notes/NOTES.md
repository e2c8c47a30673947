# Working notes (reading of /repo)
Line refs are to /repo/marcel.
## Execution core
- core.py Op: send/receive_input(wraps non tuple/list in 1-tuple, catches KillAndResume=KARE only)/call (exception -> fatal_error: send_error + raise KARE)/propagate_flush/flush default = propagate.
- pipeline.py PipelineExecutable.setup: links receivers, setup each, then customize_pipelines each. run_pipeline = push scope, setup, run, flush, cleanup, pop (finally).
## FLUSH idempotence findings (args.py:104 comment claims 2nd flush is a noop)
- tail n>0: TailKeepN.flush propagates AND Tail.flush super().flush -> downstream flushed twice. TailSkipN: once.
- args.flush with pending args: propagates twice. union.flush: last arg pipeline (PropagateFlushFromLast) flushes receiver + union propagates => twice.
- runpipeline: pipeline.flush flushes receiver (route_output) + propagate => twice; as first op thrice.
- union.flush re-runs arg pipelines every time => `tail 3 | union (|gen 2|)`, `union | union`, dup output.
- OverlapWindow.flush: does not clear window => 2nd flush emits n-1 windows of None; and when window empty does NOT propagate flush (`empty | window -o 3 | red count` loses output).
- Redirect has default flush; its receiver None => stops. Case: flush branches then propagate once. OK
## Op-level
- reverse: contents=[] in __init__ not in setup; Op.copy is shallow => copies share list. `p=(|reverse|)`, `gen 3 | p | p` infinite loop; rerun => AttributeError (contents None).
- intersect: self.common not reset at setup => 2nd run of same OpList gives different answer (API list(p) twice).
- red: erroring tuple partially updates accumulators (fatal in 2nd function leaves 1st updated). GroupingReducer: failing first tuple leaves a group [None..]. incremental with list input: list+tuple TypeError.
- difference/intersect left list input unhashable -> KillCommand.
- sort: contents None after flush, later receives silently dropped.
- gen pad: max_length=len(str(start+count-1)).  count<0: range empty.  unbounded if 0.
- window n=... overlap 0 falls to disjoint branch (None) -> check_arg fails.  disjoint 0: check ok(>=0), never flushes until end, no padding.
- expand: position>=len -> passthrough; 
- case: first true predicate; default; else dropped.
- squish: reduce from None with r_plus (None=>x).
- args: groups of n_params, last padded with None; --all single list.
## Namespace (nestednamespace.py)
- pop_scope (420-433) deletes popped params from dict, restores only scopes[1:] => global shadowed by param vanishes from the dict (still in scopes[0]).
- store_item: assignment to non-param goes to outermost scope (parent chain), params to nearest declaring scope.
## argsparser
- flags before anon; extract_flags_and_anon; VALUE_ONE needs value; expand_arg -xyz (doc: only no-value flags, code: any known flags)
- PipelineArgsParser: `--a` trailing silently dropped; `--x --y 1` drops x. unknown kwarg => AssertionError later in run_pipeline.
## cliargs.py CommandLine.parse
- anon[2:]; flags; required; defaults
## stringliteral: lone quote char counted as terminated; lone trailing escape raises; empty -> IndexError
## parser lexer: every token consumes >=1 char; `a#b` => next_unconsolidated_token returns None => AttributeError in next_token(consolidatable(None)); `"abc\` => TypeError join None; Expression.scan unbalanced "((1)" accepted (last char is ')').
## function_args_parser state machine; prefix selection in Expression.value (parser.py:349-376). start_star/star_name don't set has_args => (*a: ...) has_args False, explicit_colon True => prefix 'lambda ' OK; but for assignment `f = (*a: ..)` gets 'lambda ' not 'lambda: lambda '.
## directorystate: PWD==top(DIRS)==cwd invariant; push_dir of nonexistent -> recursion pushes home then DIRS overwritten with stale copy.
## picklefile: reader/writer exclusion; _readers keyed by path so at most one entry though many readers; close pops the entry.
## env/main/job
- env.py:156-158 late-binding closure: perm[key]=lambda env: value => every marcel.builtin name gets the LAST builtin's value (check builtin.py / other route)
- env.py:93-94 'HOST' 'ITALIC' implicit concatenation => HOST, ITALIC not in immutable vars
- op/apiop.py first: StopAfterFirst() constructed, never raised => first collects everything; errors dropped
- main.py commands_in_script 262-273 pure function: skip blank lines, join '\' continuation
- job.py Job states FOREGROUND/BACKGROUND/PAUSED/DEAD; DEAD absorbing; wait_for_idle_foreground; at most one fg
- job.py ChildListener; store.py setup truncates reservoir at setup (writer 'wb') ; load reads at run; `x <$ ... >$ x`: Load.setup makes reader then Store.setup writer -> PickleFileUsageError -> KillCommand
- core.Command.execute: env.check_nesting asserts scopes balanced; changes() only if remote
## workspace.py locking
- owner() 451-469: unowned exists->None; delete_abandoned_markers() then expects exactly one marker => dead owner: marker deleted -> AssertionError (lock_workspace's "abandoned" branch 399-407 unreachable); afterwards exists() False => workspace invisible until validate() at next startup recreates marker (589-592).
- validate(): `if not marker.exists(): ensure_exists()` check-then-act race: P1 sees none, P2 recreates+locks, P1 touches unowned -> P1 locks too => mutual exclusion violated.
- Two processes racing rename: loser FileNotFoundError. safe.
- VarHandler: setvar check_mutability, vars_written; delvar uses namespace.pop (dict.pop! doesn't go through __delitem__ so scopes[0] keeps var => persisted & resurrected on reopen). changes(): excludes deleted vars => deletion in child job not propagated to parent.
- setvar_import doesn't add to vars_written.
- default ws: restart keeps env pickle, else deletes. setvar replacing Reservoir deletes its file (ensure_deleted raises if in use).
## storagelayout.py migrate chain original->xdg->ws1->ws2->ws3->pt (asserts); storage_layout picks first match. pt match requires default history first lines; l2[6] IndexError if short.
  NOTE after fresh init: create_on_disk touches empty history => layout matches WS3 not PT on 2nd start => migrate deletes history (empty) ok; but user w/ history? pt history format written by prompt_toolkit '\n# 2024-..' ok.
  version compare is string comparison '0.9.0' < '0.10.0' false.
## reader.py command_by_id: history newest first; id -> history[len-1-id]; '!!' uses len-1.
## jobop: jid negative not rejected (jobs[-1]).
## Later findings
- exception.py: KillCommandException, KillAndResumeException (KARE) subclass BaseException => Op.call `except Exception` does not catch them; only receive_input catches KARE. KARE raised in flush (e.g. sort key) aborts the run: downstream never flushed.
- unique: wrap_op_input does not convert list->tuple despite comment (unique.py:83) => list input kills the command.
- forkmanager.py:99-112: worker polled after EOF increments completed again => early exit, output of other workers lost.
- read.py CSVReader/InputIterator (297-373): blank line => rest of file lost; multi-line quoted broken; short rows padded None.
- write.py: Write.receive always forwards x.
- filenamesop.visit 117-171 termination with symlink cycles via visited_dirs; emitted_paths once; determine_base nearest common ancestor.
- history.py 95-107 ids; reader.command_by_id consistent.
- cast.py None passthrough, extra components unchanged.
- gen|head never terminates. 
- picklefile _readers keyed by path (several readers share one entry).
- Model arch: machine {St; setup; step: St->event->St*list event*outcome(Ok|Resume|Kill)}, deliver catches Resume on Data only, seq right nested.

# Defects found while proving
Each is the subject of a `_refuted` theorem or of a note in MANIFEST.json.
- C04/C09 window -o: with fewer than n tuples spurious windows of None; on empty input the end of stream is not passed on.
- C12 red: a tuple on which the 2nd function fails has already been counted by the 1st; an unhashable group key aborts the command.
- C14/C17 difference, join: when the argument pipeline fails, the input tuple at hand is dropped. C15: intersect without pipelines: AttributeError.
- C18 filter: a compare value of None never matches. C19/C01: runpipeline.receive_error bypasses the nested pipeline.
- C22 reverse, difference, intersect, join, filter, case keep state between runs.
- C23 a global shadowed by a parameter is gone after the call; deleting a parameter makes pop_scope raise KeyError; a parameter named PWD removes PWD; a pipeline passed as a binding hits an assertion of CompilablePipeline.assign.
- C25 env.py:93-94 a missing comma leaves HOST and ITALIC unprotected. env.py:156-158 late-binding closure.
- C26/C46 delvar bypasses the scopes: a deleted variable comes back on reopening; deletions and imports made by jobs are not transmitted.
- C27 a#b, a trailing backslash or an unclosed quote with backslash raise internal exceptions; `((a)` at the end of a line is accepted; pieces containing ''' lose text.
- C29 bg and fg reject their flags; a pipeline parameter named without value is dropped; unknown parameter: AssertionError; a flag whose value is True is reported missing.
- C30 a heredoc script is cut at its first blank line. C42 repeated flags and undeclared positionals dropped; bad integer: ValueError.
- C31 pushd of a broken link, deletion of the current directory: top of the stack is not PWD; pushd of a file: uncaught exception. When a session begins and the last directory is gone, home takes the place of the next directory in the stack, which is lost; if the last directory cannot be entered, marcel ends with PermissionError, each time.
- C32 two readers share one entry; a pipeline whose setup fails leaves its reservoir open and truncated; jobs are not excluded from each other.
- C33 append: each Pickler starts a new memo while the Unpickler continues the old one: wrong values.
- C34 validate: check-then-touch race; the rule on the parent process; a dead owner's marker makes the workspace unusable until the next start.
- C35 startup scripts: several foreground jobs; ctrl-C inside bg resurrects a dead job; wait_for_idle race; ReconfigureException kills jobs.
- C36 a worker that has ended is counted again at each round: output lost, possible deadlock.
- C37 an empty line ends the file; headings of the previous file stay in force; a quoted line end splits a row; a heading starting with `__` is unusable.
- C38 special files are never listed; a file is listed under several paths through links.
- C39 edit doubles the line ends of a command of several lines; any line starting with edit is taken for the command edit.
- C40 keys __class__, __dict__, __weakref__ are not found by attribute.
- C41 histories in the current format are deleted while the default workspace is unused; IndexError at each start when the first entry has no microseconds; an interrupted first start bricks startup; a workspace named workspace is lost; versions compared as strings; XDG_CONFIG_HOME = XDG_DATA_HOME breaks a migration.
- C45 `( x: ...)`; `f = (*a: ...)` is called; defaults and ** are not recognised.
- C47 commas between parameters are optional after the first; `echo =x` is an assignment, `echo :x` runs x; `echo a#b` fails; a variable named map, read, write, load or store takes over the sugar; missing quotes are not reported in operator names and redirection targets; `a, b`: AttributeError.
- C48 a trailing escaped blank of a pipeline is lost and the kept text cannot be compiled.
- C49 an empty tuple makes read --csv stop at its line; an Error arriving at write --csv or --format is lost (fatal_error) or kills the command (non_fatal_error).
- C50 completion does not escape = , # and \x1c-\x1f, \x85, \xa0; does not escape the quote inside a quoted word; a name starting with ~ becomes a home directory; wildcards and backslashes are escaped for the lexer but read again by Filenames.normalize; is_dir is tested on the directory with its escapes.
- C51 Filenames.normalize unescapes a second time and treats Files as patterns: a file with a backslash, or with [c], is not what its own path designates (rm of such a File removes another one!); a current directory with [c] breaks all relative names; broken links cannot be named except by a pattern; //x raises; x/.. is dropped before links are followed; ~/.. is the current directory.
- C52 grep -i foo, sed -i, rm -i are refused: -i is taken as the bash operator's own flag; 'a b'c is refused as if the quote were open; an argument ending with an escaped blank merges with the next; a no-break space separates words.
- C53 ProcessOutputHandler: readline buffers what select does not see, so lines are delayed until the next write, and lost if the command ends while a background child holds the pipe; poll after an empty select loses output written in between; bash after an operator that sends nothing fails with AttributeError.
- C54 OpList.__or__ changes its left operand, so a common prefix of two pipelines accumulates both; first never stops the pipeline and never raises on Errors (StopAfterFirst is not raised); gather and first ignore errors=; for x in pipeline raises KillAndResumeException where gather returns the Error.
- C55 upload and download do not quote the target directory or the identity file, so a blank in either splits the scp command; download ignores the host's port; IPv6 addresses are not put in brackets for scp.
- C56 A stored pipeline containing sql, run as a command, is flushed after its connection was closed: psycopg2.InterfaceError after the changes were committed. sql's ARGs are ignored when there is input, contrary to its help text; an empty statement raises IndexError (classify_statement).
- C57 A process killed while it closes a workspace can leave env.pickle or properties.pickle empty; validation does not notice; open raises EOFError (marcel goes on in the default workspace; ws --list raises EOFError, which MainInteractive.run takes for ctrl-D). A damaged default workspace (an editor backup beside its startup.py is enough) has the name '' in the errors, so Workspace('').mark_broken moves the whole workspace directory, with all workspaces, aside. ws --delete __DEFAULT__ deletes the default workspace's files. A workspace a/b is put aside at the next start. If the owner of a workspace was killed, opening it first deletes the marker and then fails an assertion; the branch that steals the marker is unreachable.
- C58 After a startup script has been modified, the next line typed is lost (main.py:225 overwrites the inherited input). An error in the default workspace's startup script makes marcel print it forever (the exception is raised at 287, outside the try statement meant for it, and 374 loops). A script that opens a workspace whose startup script fails is run again from the beginning, forever; on a change of workspace a script does not run the startup commands, and a damaged workspace is ignored. run_on_startup with a ws command ends the shell with a stack trace. ws -o of a workspace in use ends the shell. edit -s W calls Workspace.exists with an argument it does not have: TypeError, the shell ends. run N where command N is run N loops forever.
- C59 A closing brace outside markup, or a backslash at the end of a paragraph, makes help loop forever (helpformatter.py:400-401: pass). A text that ends in {p} is an error (571). An escaped backslash before {p} is invalid markup (backup, 200). {b:} before trailing whitespace in a paragraph with wrap=F: IndexError (455). console_width never returns None: without a terminal, help raises IndexError (util.py:159).
- C60 A function loses its compiled form when sent to another process (function.py:73-76). At the prompt, gen -p (f), expand (f), write (f), bash (f), sql, upload, download, fork (f) and the arguments of a pipeline variable are not compiled again: the command fails, though it works in a script. Inside fork and sudo nothing is: fork 3 (| gen (n) |) fails everywhere. case sets up its branches before compiling their functions, and compiles only the default (op/case.py:120-127): gen 3 | case (x: x > 1) (| head (n) |) fails at the prompt; inside a remote even (| map (x: x) |) does.
- C61 tail, args and union flush their receiver twice (op/tail.py:67-69 and 111, op/args.py:103-106, op/union.py:74-77 and 111-113), and sudo does (op/sudo.py:127, pipeline.py:334). union runs its pipelines again at each flush: gen 2 | tail 1 | union (| gen 1 10 |) gives 10 twice. window -o adds windows of None: gen 3 1 | tail 2 | window -o 2 ends with (None, None).
- C62 Errors from remote (and fork) and sudo arrive as ordinary tuples (Error,), without the host column (forkmanager.py:176, sudo.py:125). farcel uses one Pickler (farcel.py:66), so an object that changes between outputs arrives as it was first. What the pipeline prints on the host (write, print) corrupts the stream: all later output is lost (remote.py:168-170 only prints the exception; sudo dies). sudo takes its pipeline out of the shared list of arguments in setup (sudo.py:83), so a second run fails: Missing pipeline. As in C36, output is lost when hosts differ in how much they output, e.g. when one is down.
- C63 cluster.py:107 tests type(host[1] is int), which is always true: host=('a', 'b') is taken for host a with port b. A number given as a host is only noticed when used. Equality of hosts is that of _host, which loses the port when the host is first used (cluster.py:61-62): labels of two ports of a machine are equal, and a label is not equal to the host of the cluster. The key file, user and sudo flags are not quoted (remote.py:172-181, sudo.py:96), and the command depends on the local platform, not that of the host.
- C64 Strings that start with a dash are taken for flags: write('-c') writes CSV to stdout, no call of write writes to such a file, ls('-f') and bash('ls', '-i') are misread or refused. gen(pad=0), write(''), env('') ignore the value; ls and read ignore any depth but 0 and 1; dirs(clear=False) clears the stack (dirs.py:32). Not in api.py, but in their modules: ws() passes the literal 'name' and undeclared flags --exp and --imp (ws.py), edit() drops startup.
- C65 The API's ps() always raises TypeError: the parameters left out are _UNINITIALIZED, which is not None (ps.py:131), and int() of it fails. A process whose uids cannot be read (None) ends ps -u with a TypeError, and later processes are lost. ps -p '' lists everything; ps -p 0 lists everything when run a second time (if self.pid).
- C66 A built-in function without a module (r = (random.random)) makes every later job fail in the child and the workspace impossible to open again, even after env --delete. Data that pickle rejects (x = ([lambda: 1])) is an exception in the shell at every job; data that dill rejects leaves an empty env.pickle, so that all variables are lost. Functions are evaluated again in each process: f = x; n = (1); f = (partial(max, n)) ends in NameError, and reassigning n changes f in jobs only. The parameters of a pipeline do not reach fork workers; a pipeline given as an argument to a pipeline is an AssertionError (nestednamespace.py:167). fork at the prompt in a named workspace has no workers (lock_workspace accepts the owner's children only). DIRS in jobs is what it was at startup. Deleted variables are still there in jobs.
- C67 Block devices and sockets are shown with d, pipes and character devices with - (file.py:233-236 tests masks, not types). Group names are padded to the width of user names (file.py:62). At the prompt widths grow while files are shown. Relative links are checked from the current directory (file.py:261), so good links elsewhere are shown as broken. ls of a device, pipe or broken link shows a dot (filenamesop.py:161 is_file). ls -f can pass on a File that says it is a directory (send_path looks again, ls.py:117).
- C68 A timer run a second time (first(t) twice in the API) has two metronomes: the first one never stops (self.done is never set, Metronome.run loops forever), and now is not reset, so that the second run starts with an old tick and ticks are closer than the interval. A negative interval ends the metronome after one tick with an exception, and the timer waits forever. timer 1 | head 3 never ends.
- C69 env x says that x is undefined if its value is None, though env lists it. env '' and env --delete '' list all variables. env --delete of an undefined variable says nothing.
- C70 import a.b makes a variable named a.b (import.py:94), which no function can refer to, and does not bind a. import package submodule is refused unless the package has loaded the submodule (module.__dict__, import.py:110). import m * ignores __all__. import m * stops halfway at a name that must not be changed (PWD, DIRS, ...), keeping what came before. import m '' is an AssertionError; --as '' makes a variable without a name.
- C71 The loop in initial_namespace (env.py:156-158) binds late: every name of marcel.builtin gets the value of the last, set_prompt; only the import line of the startup script hides this. Without that line no session starts (TypeError, main.py:164) and Color(...) sets the prompt. set_prompt has no effect on the session that calls it, since import * copied PROMPT before (builtin.py:73-75): the prompt is '$ ', and after a change of workspace that of the previous workspace. The list of run_on_startup is never cleared: after ws -o, ws -n or an edit of the script the earlier commands run again. A function of the script cannot be called in it if it needs another name of the script (configscript.py:54). A saved variable hides one of the script for good. help startup describes RUN_ON_STARTUP, which no code reads.
- C72 A function in PROMPT that evaluates to a color shows the text Color(...) (env.py:327-331; help prompt promises colors). A number or None in PROMPT raises KillShellException, which except Exception does not catch: marcel ends. With home /home/al, the directory /home/alice is shown as ~ice (env.py:289). If the startup script defines PROMPT_DIR, marcel ends at the first prompt (KillCommandException, env.py:307).
- C73 With tracing on, every command containing reverse (no __repr__: core.py:46-47, assert False) or window with a predicate (window.py:140: predicate.source() although source is a string) is killed during setup; so is sudo (its __repr__ uses self.pipeline before setup assigns it). Trace.__getstate__ clears tracefile of the live object: after the first job, trace says tracing is off, and commands run by marcel itself are not traced, while jobs still are. trace -f with a relative name: each job opens the name again in its current directory, so after a cd the trace moves to another file, or, if that is not writable, every job dies. trace prints nothing when tracing to a file (no else in print_status).
- C74 gen -5, and gen -p -3 5: a negative number before the first other argument is taken for an unknown flag and refused (ArgsParser), although gen START -5 is accepted.
- C75 red and: a None makes it forget everything before (True, None, True gives True). red -i concat | sort (or reverse, store, gather): every row shows the complete list, since the list is appended to in place. A leading None is skipped by + * max and so on, one elsewhere is an Error.
- C76 Tab on an empty line, on `cat -` or any flag of an executable or variable, and after `(f)`: an exception, which is swallowed, and nothing is offered. `(f) ` and `ls > ` offer all operators, `ls > fo` offers nothing, `ls | map (f` offers all operators. A line that starts with a word such as `helpers` offers help topics for every argument. An error in a nested pipeline that has been closed hides the completions of all that follows.
- C77 `ws foo` when another process has foo open: the current workspace is closed, then KillCommandException is raised outside of any handler, and marcel ends. `ws --new foo bar` ignores bar; likewise -o, -d, -h. The function ws of op/ws.py (which marcel.api does not export): ws(name='x') opens workspace 'name'; ws(exp=...) and ws(imp=...) are errors.
- C78 pos(): (1) pipelines run twice through the API, or by args, go on counting where they ended (Op._count is set only in the constructor). (2) sort: every key sees the position of the last tuple, of whichever operator received last. (3) a generator given to expand: pos() in it is that of the operator after expand from the second element on. (4) in the first operator of a command, pos() is that of an earlier command or AttributeError.
- C79 parse_args: (1) a value of an int_flag that is not a number raises ValueError, which is printed as an error while the script goes on without its variables; all other mistakes end the script. (2) negative numbers, and all values that start with -, are refused. (3) anon() drops two words, so marcel x y <<EOF loses x. (4) an immutable variable among the declared ones: those before it are set, those after it are not, and the script goes on. (5) a variable called usage is taken for the usage text. (6) FlagArg.__repr__ overwrites its buffer; flag('ab') is an AssertionError. (7) words are ignored without anon().
- C80 jobs: (1) the shell waits for the process of a foreground job, but not for its changes to be applied: the next command may see the old variables, and exit may save them. (2) of two jobs that assign the same variable, the one that is done first may win. (3) an exception other than EOFError in ChildListener.run (dill.loads fails, setvar fails, OSError after a kill during a send) ends the thread silently: no job changes a variable any more until a restart. (4) a job paused by ctrl-Z in the middle of a large send blocks the thread. (5) PWD is treated in update_namespace, but never sent, since it is assigned with assign_permanent: a job cannot change the directory. (6) when it stops, ChildListener.run returns with the lock held.
- C81 pipelines in the API: (1) case(...): PipelineOpList.setup does nothing, so a branch of two or more operators is not linked (and not set up): all its output is lost. (2) args(lambda x: p) with an existing p: the operator | extends p at each call, Redirect becomes its own receiver, and flush never ends: RecursionError at the second group. (3) when setup of the pipeline of a function fails, the executable is kept, and later runs use it with its old arguments. (4) PipelineFunction.parameters is co_varnames, which includes local variables: def f(x): y = x + 1; return gen(y) fails with a TypeError. (5) PipelineFunction.append_immutable changes the pipeline: each run of the same args adds one more Redirect (harmless, but the chain grows).
- C82 objects as keys: (1) File, Process and HistoryRecord compare with other.path, other.pid, other.id whatever other is: comparing a file with None, a string or a pathlib.Path raises AttributeError (also f == None, f in [...] in functions), which only TypeError handlers in unique and sort do not catch. (2) Process.__hash__ is the pid, which is also the hash of that int: a process and that number in one column make unique fail. (3) HistoryRecord defines __eq__ but no __hash__: history | unique says it is not hashable. (4) processes are compared by pid only: reused numbers are merged. (5) files are sorted by the components of their paths, so a/b comes before a-b.
- C83 streams in variables: (1) y = (x) makes both variables the same reservoir, without counting: a store to one replaces the other's stream, assigning or deleting one deletes the file of the other (load: FileNotFoundError), and a later store to x brings y back with x's new rows. (2) store in an interactive session writes PID.x.pickle in the job, but the variable is sent to the shell only if the job succeeds: after a failure the file stays (for ever), and a later store --append to the undefined x appends to it. (3) store to a parameter that holds no reservoir writes the file named after the parameter: it overwrites the stream of the global variable of that name, and leaves the file behind.
- C84 farcel: (1) kill_descendents stops at the first process that has ended meanwhile (NoSuchProcess) or is another user's (AccessDenied): the rest get no signal. (2) Programs started in the background by a shell that has ended are not found; if they keep standard output open, the client waits for them. (3) No client ever sends the signal that farcel listens for (communicate closes the input), so an interrupted command goes on on the host; the signal would not stop the pipeline anyway. (4) If the request cannot be unpickled, or the environment cannot be created, pipeline_runner is undefined: NameError on standard error, and an empty output, which the client takes for that of a command without results.
- C85 colors: (1) history | write f (or history > f) writes nothing, as HistoryRecord.render_full needs a color scheme and there is none for files; same for COLOR_SCHEME itself. (2) help color shows extensions with dots ('.jpg'), which never match: the dot is removed before the lookup. (3) A dict is accepted as any color; then ps, or every error message, fails. (4) set_extension_color fails unless a dict was assigned before, and checks nothing. (5) Color(0, 0, 6) complains but is made, and is Color(0, 1, 0). (6) Commands of processes are written with the escape sequences in them. (7) A process whose user psutil may not see is not shown.
- C86 input: (1) If standard input is a pipe, the script named on the command line is ignored and the data is run as commands: cat data | marcel script, or a script started from a program that gives it a pipe (known, notes/bugs.txt). (2) From a pipe, nothing after the first blank line is run. (3) Lines from a pipe are stripped first, so that backslash and space at the end of a line continue it. (4) marcel < file runs line by line, so continued lines are cut; a here document that does not fit into a pipe is such a file.
- C87 edit: (1) edit -s NAME fails with a TypeError for every NAME: workspace.exists(env) is called with an argument that it does not have. (2) The path is not quoted: a directory with a space in its name makes the editor open two other files. (3) edit N without EDITOR leaves a temporary file, and then fails with an AssertionError after the message. (4) edit N for a number without a command opens an editor on an empty text; leaving it empty gives an AssertionError. (5) Any line that starts with the letters edit is taken for edit: edit1 = 5 edits command 1 and runs it.
- C88 help: (1) help assign prints None: the operator is public, and offered by the tab key, but has no help. (2) builtin, file, history_record, interaction, process and startup have pages, and other pages refer to them, but the tab key never offers them; help operator refers to help out, which does not exist. (3) The tab key offers no topic and no user inside quotes (the quote is taken for the tilde). (4) After an escaped character the completion of a topic loses a character. (5) Lines of /etc/passwd without a colon are offered as users, with their line ends.
- C89 run: (1) run without a number is said to run the previous command, but only prints a message about a non-negative integer. (2) run N where N is its own number in the history never ends. (3) In a script, run N is an AttributeError: there is no reader.
- C90 jobs: (1) bg and fg declare -j and -p, of which exactly one or the number must be given, but the number has no default: with a flag the number is required, and with both there are two. So bg -j 1 and bg -p PID are always refused. (2) bg (0) compares a function with a number: TypeError, which ends marcel.
- C91 argsparser: str_to_int, function and fork_gen look at a StringLiteral, which still has its quotes, not at its value(): head '5' and gen "3" are refused, as are red '+' and squish '*' (quoting * is what a user of a shell would try); fork '3' runs once for the character 3 instead of three times. Quoted flags are not flags.
- C92 fork: (1) run_pipeline_in_child sends an exception after run_pipeline has closed the writer (cleanup of SendToParent): OSError, so a failure in the run of an instance never reaches the parent, and fork ends as if all were well. (2) An exception from setup arrives, but is passed on as an ordinary value. (3) process.daemon = True: fork, remote, upload and download in the pipeline of fork fail with AssertionError (daemonic processes are not allowed to have children), which is lost as in (1): no output at all.

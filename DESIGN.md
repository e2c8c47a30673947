# Formal model of geophile/marcel in Rocq (Coq 8.16.1)

The properties are in `properties.jsonl`, the status of each in `MANIFEST.json`, the model and the proofs in
`rocq/theories`, defects of the code found while proving in `notes/NOTES.md`, the wrong programs tried against the
theorems in `seeded/LOG.jsonl`.

## Trusted base
* Coq's kernel (`coqc` 8.16.1). No kernel check is switched off, no plugin is used.
* Axioms: none. `Print Assumptions` answers "Closed under the global context" for every theorem listed in
  MANIFEST.json (most files print it under the theorem). No file declares an axiom, a module type or a functor; every
  `Variable` and `Context` is in a section. Loading the standard library brings in the seven constants
  `Coq.ssr.ssrunder.Under_rel.*` (sealed by a module type in the standard library), which `coqchk` and `vcheck` list;
  no theorem here depends on them.
* The reading of /repo/marcel: no code was run. Every definition of the model cites the file and the lines it models and
  says what it simplifies. That the definitions say what the code does is not machine-checked.
* The statement of each theorem and the specifications it uses (`*Spec.v`, or the section Specification at the top of a
  `*Props.v`). A theorem whose name ends in `_partial` proves the property on a part of the domain, named by its
  hypotheses; one that ends in `_refuted` proves that the property fails on an input outside them.

Everywhere not modelled: the Python interpreter (a user function is an arbitrary partial function of its arguments,
`args -> value or exception`, without side effects), floats, characters beyond 8 bits, hash collisions (dict and set
are association lists up to Python equality), messages of exceptions, the terminal, ssh and remote hosts, databases
(`sql`), `sudo`, `bash` (except how its arguments are read), colours and formatting of output, help, tab completion,
`marcel.api` wrappers, memory and recursion limits of Python.

## Layers
1. `Py/`    Python values (`Val`), equality, hashability, truthiness, ordering, wrapping of rows; decimal numerals (`Dec`).
2. `Exec/`  the push-based execution core: events (tuple, Error, end of stream), operator = state machine
   `step : state -> event -> state * events * outcome`, outcome = normal, KillAndResume (caught by `receive_input` only) or
   KillCommand; sequential composition; running a pipeline (setup, run, flush).
3. `Ops/`   one model per operator, then theorems against plain functions on lists.
4. `Env/`   nested namespaces, variable handler, jobs' transmission of variables, persistence of a workspace's variables.
5. `Syntax/` lexer, string literals, parser, argument parsers, scripts, function-argument recogniser, saved sources.
6. `Sys/`   directory stack, reservoirs, pickles, workspace lock, jobs, fork, csv, ls, history, json, storage layouts.

Each area has `X.v` (the model, with citations), `XSpec.v` (what is meant to happen, independently of the
model's helpers), `XFacts*.v` (lemmas), `XProps*.v` (the property theorems, and `Example`s showing that concrete
cases meet the hypotheses).

## Per property
| id | modelled code | how it is stated and proved |
|----|---------------|-----------------------------|
| C01 | core.py Op.send/receive_input/receive_error/flush, pipeline.py setup/run | a pipeline's effect = effect of its tail on the stream of its head; associativity; stored pipelines; induction on the stream |
| C02 | Op.call/fatal_error, map, select, squish, cast | output = substitution input by input; induction on the stream |
| C03 | Op.receive_error of all per-tuple operators | errors are forwarded at once, in place, through every pipeline of these |
| C04 | flush of all operators | once-flushing class closed under composition; refuted for tail, window -o, union, args, stored pipelines |
| C05-C08 | head, tail, reverse, sort, unique | output = firstn, skipn, rev, stable sorted permutation, first occurrences; invariant of the state along the stream |
| C09 | window | chunks, cuts at the predicate, slices; refuted for -o with fewer than n tuples |
| C10-C12 | red, reduction.py | left folds per column and per group; failing tuples skipped for one function, refuted for several |
| C13 | expand | flat map |
| C14-C18 | difference, intersect, union, join, filter | bag and relational specifications with an invariant on the table of counts |
| C19-C20 | case, args | routing; groups of arguments |
| C21 | gen | arithmetic sequence, padding width and order; gen 0: still running after every number of steps |
| C22 | setup of every operator | a run from any state left by earlier runs = a first run, for restartable operators; refuted for six others |
| C23-C24 | nestednamespace.py, pipeline.py run_pipeline | refinement to a stack of environments for every program of assignments, deletions and calls; refuted with shadowed globals |
| C25 | object/workspace.py VarHandler, env.py immutable names | invariant over histories; refuted for HOST, ITALIC and parameters |
| C26 | VarHandler.changes, main.py update_namespace | parent after a job = child's variables; refuted for deletions and imports |
| C46 | to_persistent_state, Workspace.open/close | after any history without deletions reopening gives the same variables; refuted with |
| C27-C28 | parser.py Lexer and tokens, stringliteral.py | tiling, termination, whole expressions, quoting round trips, for every text and schedule of modes; refuted crashes and losses |
| C47 | parser.py Parser, all productions | the set of accepted texts and their meanings = derivations of a grammar given as inductive relations; soundness and completeness |
| C48 | PipelineSourceTracker, EnvValue, Compilable* | parsing the kept text gives the same operators; by cutting lemmas on the lexer |
| C49 | write.py writers, csv.writer (QUOTE_NONNUMERIC), composed with the C37 model of read | what is written is a content of the C37 specification; induction over the tuples |
| C50 | tabcompleter.py FilenameHandler, ArgHandler, composed with the lexer of C21 and with C51 | the escaped text is read back by String.scan (induction over the word); then c51_itself_partial |
| C51 | filenames.py Filenames.normalize, util.unescape, os.path.normpath, expanduser, fnmatch, pathlib.Path.glob (3.11) | the algorithm against an inductive reading of patterns and trees |
| C52 | parser.py create_op_executable, String.scan in shell mode, BashArgsParser, Bash.setup | words as bash divides them (inductive), scanning lemma per part, then the loop over arguments |
| C53 | op/bash.py NonInteractive, ProcessOutputHandler | transition system of command, reader and feeder; invariants over all interleavings; termination by a measure |
| C54 | pipeline.py OpList, PipelineIterator; api.py gather, first; op/apiop.py | memory model of OpLists with an invariant on unextended variables; gather as a machine at the end of any machine |
| C55 | upload.py, download.py scp_command; util.py quote_files; shlex.quote | relational spec of how bash reads words (proved single-valued) and of scp arguments; induction on the name for the quoting |
| C56 | op/sql.py, object/db.py, the driver as committed/working state | traces of driver actions, crash = prefix of the trace; invariant relating done, pending and failed statements to both states |
| C57 | object/workspace.py, locations.py, persistence.py, ws and start of main, on a file system of paths | programs as sequences of atomic changes, crash = a state between two; a weakest precondition with a condition for all crash states; invariant of the moves; symbolic view of one workspace |
| C58 | main.py: the two main loops as transition functions, over any behaviour of commands | invariant over all steps for at most once and each once; big-step specification of a session refined by the steps; induction on the script |
| C59 | helpformatter.py: the pointer into the text as a zipper, the markup parsers, paragraphs, textwrap, and the application of the marks by counting; console width given | documents as syntax trees and how they are written; each pass proved to compute what the tree says, by induction; word-preservation and line-length lemmas for textwrap |
| C60 | which arguments each operator compiles, evaluates and calls, in setup, in receive and in a job; pickling; setup states of pipelines; fork, remote and sudo as a pickled copy | a table of the places where a function can be used, and theorems that a command works if and only if the table allows all its functions: an invariant on operators indexed by place, kept by pickling, compiling and setup, by induction on the nesting |
| C61 | flush of every operator (as in C01-C24), with the repetitions that tail, args and union make | every operator but union and window -o reaches, by its first flush, a state in which it passes each further flush on and nothing else; composition, nesting and case keep this; then the stream after the first flush does not matter |
| C62 | farcel (PickleOutput with one Pickler and its memo, exceptions as Errors), the loop of Unpickler.load, LabelThread, consume_input, on top of the processes and pipes of C36; Sudo.setup and run | induction on the output with an invariant relating the memos of the two sides to the objects already sent; prefixes for lost connections; then the theorems of C36 for the schedules |
| C63 | Cluster.__init__, Host.ensure_initialized and __eq__; the ssh and sudo command lines, and how a shell reads them (the specification of C55) | case analysis on the values given; the word-by-word reading of a joined command line; uniqueness of the reading for the refutation |
| C64 | the 42 functions of op/*.py that build argument lists, with the declarations and the parser of C29 | an argument list has one reading (C29), by induction; the lists that the functions build are those of the named parameters, piece by piece, for each function |
| C65 | Ps.setup, convert_to_id, the filters, run, uid and gid; processes as psutil describes them | the filter chosen decides the request; induction on the processes and on the user database |
| C66 | EnvValue.wrap and reconstitute, the two dicts of NestedNamespace, from_persistent_state, close and open, the lock, and what a new process does; Python as a record of functions | induction on the history: the scope lists each variable in the order of its first assignment with the last value's wrapper; induction on the restored scope, with a prefix argument for the variables of functions |
| C67 | _mode_string, the widths, _formatted_metadata, render_full, colorize, _highlight_color, determine_base, relative_to; File as cached lstat and executable, with a file system that changes between uses | bits of numbers (N.land, shifts); reading the line back word by word; induction on the roots and on the history |
| C68 | the two threads step by step, with the Condition; time that passes between any two steps | an invariant: who holds the lock, the last tick and what has been taken are a subsequence of the ticks, the ticks are spaced |
| C69 | Env.run, EnvMarcel, EnvOS, getvar and delvar; sorting by code of the characters | insertion sort is a sorted permutation; the order and the substring test are characterised; one case for each request |
| C70 | Import.setup and run, setvar_import; modules with contents, __all__ and submodules | case analysis on the statement; induction on the contents of the module for * |
| C71 | builtin.py with its two variables, initial_namespace with its late-bound loop variable, exec with separate globals and locals, open, run_startup_scripts | simulation between the two-namespace execution and a one-namespace big-step semantics, by induction on the run |
| C72 | prompt_dir, prompt_string, colorize; a terminal that interprets SGR sequences | induction on the pieces with the terminal's state after the buffer; string lemmas for paths, injectivity of joining parts |
| C73 | an instrumented run of a pipeline (Op.send, Op.send_error, setup, run) beside the run of C01; the Trace object through commands, jobs (pickling) and workspace switches | erasure of the instrumentation by induction on the pipeline and its events; peeling off the first operator, with the log of the rest equal to the log of the rest on what the first one sends; invariants over histories |
| C74 | the lexer, parser and argument parser of C27, C47 and C31, with create_op, the conversions, eval_function and the operators of C01 | a relation from written items to machines; typed lines have a derivation in the grammar (mutual induction on the layout) and create the operators meant (mutual induction on the meaning) |
| C75 | the reduction functions, the table of symbols, red and squish (C10, C11), and red -i concat with a heap | an inductive relation of columns and results; folds by induction, bit by bit for the bitwise symbols; composed with the theorems on red |
| C76 | the parser with its state (position, last token, context, stack of pipelines) and the exceptions that stop it; the tab completer on operators and flags | simulation of the parser of C47 where it succeeds; an invariant of the state by induction on the unfinished line |
| C77 | op/ws.py: arguments, choice of the form, each form, the restart, the session; on the programs of C57 | simulation: a relation between the disk and the specification, kept by every command; the theorems of C57 for one workspace with a frame for the others |
| C78 | core.py: receive_input, send, flush, pos; env.current_op; behaviours of the operators as programs that call functions and send; case and args with nested pipelines | invariant: every operator's counter is the number of its inputs in the trace, and current_op is the operator whose function is called; for the output, simulation by a composition of stream functions |
| C79 | cliargs.py in full: constructors of flags, registration, token_scan, parse, parse_args; the script as a list of commands; KillShellException, KillCommandException and ordinary errors told apart | the command line is decomposed into uses, induction over the uses for the scan, dict lemmas for the defaults and the last use; inverse of the scan for the refusals |
| C80 | job.py:63-85, 160-299 and main.py:69-86, 205-253 as a transition system of the main thread, the listener thread (program counters, lock, condition variable, list of pipes) and the job processes (phases, contents of the pipe, kill, pause) | inductive invariants over all interleavings; history lemmas that relate the trace to the state; leads-to lemmas over infinite runs in which the listener makes steps again and again; refutations by concrete schedules, with an invariant for what never happens afterwards |
| C81 | pipeline.py:26-162, 363-520, op/args.py, op/case.py, op/redirect.py: operators as objects in a memory with mutable receivers, OpLists as shared cells | a representation invariant (a chain of receivers that ends at a Redirect) by which sending through objects is the composition of stages; induction over groups, runs and the chain; refutations for all limits and all branches |
| C82 | object/file.py:116-135, process.py:35-54, historyrecord.py:26-42; pathlib's parsing and comparison of paths; Python's == and < with exceptions, hash for any hash functions, sets and dicts as tables of hashes; unique, difference, join, sort | what matters of a value as a key; == decides equality of keys, by induction over nested values; dicts refine finite maps over keys; the order on keys is proved strict, transitive and total; insertion sort |
| C83 | op/store.py:97-127, op/load.py:82-110, setvar, delvar, data_ws_res and the variables of a job as functions on variables (plain or path) and files; an interactive session and a script | refinement to a map from names to values, with the invariant that every variable has the file of its name and every file its variable; frame lemma for arbitrary states; refutations by computation |
| C84 | bin/farcel.py:147-185 and 121-140 as a transition system: main thread, pipeline thread, other processes that fork and end at any time | invariants over all executions (what was output, which processes were signalled, process table), progress and a measure; refutations by explicit executions |
| C85 | color.py, util.colorize, DefaultWriter and the render_full methods as functions of an optional scheme that can fail; the screen is the terminal of C72, its colors are places of the cube | specification: each object is a list of texts with the names of their colors; proved by composing texts that show as such a list and leave the terminal as it was |
| C86 | Syntax/Input.v: InputSource, read_heredoc, read_script and the loop of MainInteractive for input that is not a terminal, on top of the splitting of scripts of C30 | specification: the commands of a text, of C30; induction over lines |
| C87 | Sys/EditOp.v: Edit with its arguments (the parser of C29), find_editor, run_editor, the path of a startup script, temporary files; on top of the history of C39 | specification: the layout of locations.py, the words that bash makes of a command |
| C88 | Syntax/Topics.v: Help, the pages that exist, HelpTopicHandler, UsernameHandler | specification: lists of names; files of users by an inductive relation; permutations and order |
| C89 | Sys/RunOp.v: Run, RunArgsParser, the loop of MainInteractive, on top of History.v and Args.v | specification: lines as spaces, words and numerals; executions as a relation |
| C90 | Sys/JobPick.v: JobOp, JobOpArgsParser, Jobs.run, JobControl.job, jobs and remove_completed, on top of Args.v | specification: the jobs left, by an inductive relation; lines with numerals |
| C91 | Syntax/Literals.v: str_to_int, function, check_str, check_str_or_file, fork_gen, cluster and the conversion by default, on top of the lexer; the table of declared arguments | specification: reads_as of C28; numerals by induction |
| C92 | Sys/ForkWorkers.v: Fork.setup, run_pipeline_in_child, SendToParent, the part of run_pipeline that matters, and nested forks; together with Fork.v | specification: ids by position; behaviours of pipelines |
| C29 | argsparser.py, declarations of all operators (ArgsTable.v) | parser = relational specification, for every declaration; refuted for pipeline arguments |
| C30, C42 | main.py commands_in_script, cliargs.py | reconstruction of the lines; exact characterisation of the parse |
| C45 | function_args_parser.py, Expression.value | which function is meant, for every list of Python tokens; refuted after a blank, star, default |
| C31 | directorystate.py, cd/pushd/popd/dirs/pwd, go_to_current_dir | invariant over histories of commands in a file system with links; refuted for missing and deleted directories |
| C32-C33 | picklefile.py, reservoir.py, store, load; the memo of pickle | invariant over histories of openings, log specification of contents; refuted for two readers, jobs, append |
| C34 | workspace.py markers, lock, unlock, owner, validate | interleavings of any number of processes that may die anywhere; inductive invariant; refuted without its two conditions |
| C35 | job.py, jobop/bg/fg/jobs, main.py | small-step machine with signals at any point; invariants; refuted for startup scripts and a race |
| C36 | forkmanager.py | every schedule and pipe size: prefix, completeness under conditions, absence of deadlock; refuted otherwise |
| C37 | read.py CSVReader, text reader; the csv module's fields | rows of a file = rows of its lines; refuted for blank lines, stale headings, quoted line ends |
| C38 | filenamesop.py visit, ls.py | every file system with links: termination (measure), no path twice, all and only the right paths |
| C39 | reader.py, history.py, runeditor.py, prompt_toolkit FileHistory | invariant over histories with other processes writing the file |
| C40 | jsonutil.py, structish.py | trees: decode, format and navigation commute with the plain reading; refuted for three names |
| C41 | persistence/storagelayout.py | for every well-formed file system of a given layout startup succeeds and keeps files; refuted cases |
| C43-C44 | cast, write | tuple by tuple |

import json
P=[]
def p(title, statement, quantifier, why, anchors):
    P.append(dict(id=f"C{len(P)+1:02d}", title=title, statement=statement, quantifier=quantifier, why_tests_cant=why, anchors=anchors))

p("A pipeline is the composition of its operators",
  "Running `a | b | c` delivers to the consumer exactly what running `b | c` would deliver on the stream (data, errors, end-of-stream) produced by `a`; regrouping a pipeline does not change what is delivered, and no operator sees anything but its upstream's output.",
  "every list of operators, every operator state, every input stream of tuples and errors, whatever functions raise",
  "A test fixes one pipeline and one stream; compositionality ranges over all operator sequences and all places where an error or kill may be raised.",
  ["marcel/core.py:Op.send,Op.receive_input,Op.send_error,Op.propagate_flush", "marcel/pipeline.py:PipelineExecutable.setup,PipelineExecutable.run,PipelineExecutable.flush"])
p("A function failing on one input does not disturb the others",
  "If a user function raises on some inputs of map/select/squish/cast/expand-style per-tuple operators, each failing input is replaced by exactly one Error at its position, every other input is processed as if the failing ones were absent, and the command goes on.",
  "every input sequence, every function and every subset of inputs on which it raises",
  "The set of failing positions is arbitrary; tests try one or two.",
  ["marcel/core.py:Op.call,Op.fatal_error,Op.receive_input", "marcel/op/map.py:Map.receive", "marcel/op/select.py:Select.receive"])
p("Errors travel down the pipeline in order and are never filtered",
  "An Error arriving at select/map/head/unique/expand/... is forwarded downstream exactly once, in order with respect to the data those operators forward immediately, and does not consume a head/unique/window slot.",
  "every operator of the modelled set, every interleaving of data and errors",
  "Interleavings of data and errors are unbounded.",
  ["marcel/core.py:Op.receive_error,Op.send_error"])
p("End of stream reaches every operator exactly once",
  "When a pipeline's source finishes, each operator (and so the final consumer) is told so exactly once, after all its data.",
  "every pipeline built from the modelled operators, every input",
  "The claim is about every operator combination; some combinations (tail, args, union, nested pipelines) violate it.",
  ["marcel/core.py:Op.flush,Op.propagate_flush", "marcel/op/tail.py:Tail.flush", "marcel/op/args.py:Args.flush", "marcel/op/union.py:Union.flush", "marcel/op/runpipeline.py:RunPipeline.flush", "marcel/op/window.py:OverlapWindow.flush"])
p("head selects a prefix",
  "`head n` (n>0) passes exactly the first n tuples, `head -n` exactly all but the first n, in order; 0 is rejected.",
  "every n, every stream length and content",
  "Boundary at every n and every length.",
  ["marcel/op/head.py:Head.setup,HeadKeepN.receive,HeadSkipN.receive"])
p("tail selects a suffix",
  "`tail n` (n>0) passes exactly the last n tuples in order; `tail -n` passes all but the last n, in order; 0 is rejected.",
  "every n, every stream length and content",
  "The circular buffer wraps at every residue of length modulo n.",
  ["marcel/op/tail.py:TailKeepN,TailSkipN,Tail.setup"])
p("reverse and sort rearrange without loss",
  "reverse outputs the input in reverse order. sort outputs a permutation of the input, ordered by key, keeping the input order of tuples with equal keys; if a key cannot be computed or compared nothing unsorted is output.",
  "every input stream, every key function and comparable key set",
  "All permutations, all key collisions.",
  ["marcel/op/reverse.py:Reverse", "marcel/op/sort.py:Sort.receive,Sort.flush"])
p("unique keeps first occurrences",
  "`unique` outputs the first occurrence of each distinct tuple, in input order and nothing else; `unique -c` outputs the first tuple of each run of equal adjacent tuples.",
  "every stream of hashable tuples",
  "All duplication patterns.",
  ["marcel/op/unique.py:GeneralUniquer.receive,ConsecutiveUniquer.receive"])
p("window groups the stream faithfully",
  "Disjoint windows of size n partition the stream in order into groups of n, the last padded with None; predicate windows concatenate back to the stream and a new window starts exactly where the predicate holds; overlapping windows of size n are the n-sized consecutive slices, padded with None at the end, one per input tuple.",
  "every n, predicate and stream",
  "All lengths modulo n, all predicate patterns.",
  ["marcel/op/window.py:PredicateWindow,OverlapWindow,DisjointWindow"])
p("red is a left fold per column",
  "`red f1..fn` outputs one tuple whose i-th component is the left fold of fi over column i (None when there was no input, 0 for count); with --incremental each input is output with the fold so far appended.",
  "every list of reducing functions, every stream of wide enough tuples",
  "Streams are unbounded.",
  ["marcel/op/red.py:NonGroupingReducer", "marcel/reduction.py"])
p("red with grouping folds each group separately",
  "With '.' positions, red outputs one tuple per distinct group key, in order of the first appearance of the key, each with the folds over exactly the tuples of that group.",
  "every choice of grouping positions, every stream",
  "All interleavings of groups.",
  ["marcel/op/red.py:GroupingReducer"])
p("A failing tuple leaves red's totals untouched",
  "If reducing a tuple fails (too short, or some function raises), the tuple is reported as an Error and the accumulated results are those of the other tuples.",
  "every stream and every failure position",
  "Which function fails on which tuple is arbitrary.",
  ["marcel/op/red.py:NonGroupingReducer.receive,GroupingReducer.receive"])
p("expand preserves the unexpanded components",
  "`expand` outputs the elements of its sequence in order; `expand i` outputs one tuple per element of component i, all other components unchanged and in place; a tuple with no component i, or a non-sequence there, passes unchanged.",
  "every tuple/list, every position >= 0",
  "All shapes and positions.",
  ["marcel/op/expand.py:Expander.expand,SequenceExpander,ComponentExpander"])
p("difference is bag difference",
  "`difference (|p|)` outputs the input stream minus, for each distinct tuple x, its first k occurrences where k is the number of times p yields x; order is preserved; p is run once however long the input.",
  "every two streams of hashable tuples",
  "All multiplicities on both sides.",
  ["marcel/op/difference.py:Difference"])
p("intersect is bag intersection",
  "`intersect (|p1|) ... (|pk|)` outputs, for each distinct tuple x, its first min(count in p1, ..., count in pk) occurrences in the input, in order.",
  "every k >= 1 and all streams of hashable tuples",
  "All multiplicities.",
  ["marcel/op/intersect.py:Intersect"])
p("union is concatenation",
  "`union (|p1|) ... (|pk|)` outputs the whole input, then the output of p1, ..., then of pk, each exactly once.",
  "every k and all streams, and every position of union in a pipeline",
  "Holds or fails depending on the upstream operator.",
  ["marcel/op/union.py:Union,PropagateFlushFromLast"])
p("join is the relational inner/left join on the first component",
  "For each input tuple x, in order, join outputs x extended by the tail of each right tuple with an equal first component, in right order; with --keep an unmatched x is output unchanged; nothing else is output.",
  "every pair of streams",
  "All key multiplicities.",
  ["marcel/op/join.py:Join.receive,Join.customize_pipelines"])
p("filter --keep and --discard split the stream",
  "filter --keep outputs exactly the input tuples whose compare value occurs in the pipeline's output, --discard exactly the others; each input goes to exactly one of the two, order preserved.",
  "every compare function and pair of streams",
  "All membership patterns.",
  ["marcel/op/filter.py:Filter.receive,Filter.load_right"])
p("case routes each tuple to exactly one branch",
  "case sends each tuple to the pipeline of its first true predicate, else to the default pipeline if there is one, else drops it; the tuple is seen by no other branch; branch outputs and errors go downstream.",
  "every list of predicates and branch pipelines, every stream",
  "All truth patterns.",
  ["marcel/op/case.py:Case.receive,Case.flush,Case.customize_pipelines"])
p("args partitions its input into argument groups",
  "args with an n-parameter pipeline runs the pipeline once per n inputs, binding them to the parameters in order, the last incomplete group padded with None; with --all it runs once with the list of all inputs; no input is lost or bound twice.",
  "every n, every stream",
  "All lengths modulo n.",
  ["marcel/op/args.py:Args.receive,Args.flush,Args.bindings"])
p("gen yields the requested arithmetic sequence",
  "`gen n s` yields s, s+1, ..., s+n-1; with --pad every output has exactly the padding width and sorts lexicographically like the numbers; `gen 0` never stops, whatever is downstream.",
  "every n, s and pad",
  "Unbounded integers; unbounded output.",
  ["marcel/op/gen.py:Gen.setup,Gen.run"])
p("Re-running a pipeline gives the same answer",
  "Executing the same pipeline object again (variable holding a pipeline, API pipeline iterated twice) on the same input gives the same output as the first time.",
  "every operator of the modelled set, every first input, every second input",
  "Depends on all states the first run can leave behind.",
  ["marcel/pipeline.py:PipelineExecutable.setup,PipelineMarcel.run_pipeline,OpList.__iter__", "marcel/op/intersect.py:Intersect.setup", "marcel/op/reverse.py:Reverse.__init__"])
p("Calling a pipeline does not disturb the caller's variables",
  "After a parameterized pipeline returns or fails, every variable of the caller has the value it had, except those the pipeline assigned outside its parameters.",
  "every namespace, every nesting of calls, every body of assignments/deletions",
  "All nestings and shadowings.",
  ["marcel/nestednamespace.py:NestedNamespace.push_scope,pop_scope", "marcel/pipeline.py:PipelineMarcel.run_pipeline"])
p("Assignment inside a pipeline goes to the parameter or to the global variable",
  "Inside nested pipeline calls, assigning a name changes the innermost enclosing parameter of that name if there is one, otherwise the global; reading gives the same variable.",
  "every nesting and sequence of assignments",
  "Unbounded nesting and histories.",
  ["marcel/nestednamespace.py:NestedNamespace.__setitem__,__getitem__,Scope"])
p("Immutable variables cannot be changed by commands",
  "No sequence of assignments, deletions or imports through commands changes USER, HOME, PWD, DIRS, HOST, ... ; the others can be set.",
  "every sequence of variable operations",
  "All histories; exact set of protected names.",
  ["marcel/env.py:VarHandler.setvar,delvar,check_mutability,add_immutable_vars"])
p("Variables changed by a job are transmitted to the shell",
  "After a command runs in a child process, the parent's variables equal the child's for every variable the command set or deleted, and are otherwise unchanged.",
  "every history of variable operations in the child",
  "All histories.",
  ["marcel/env.py:VarHandler.changes,clear_changes", "marcel/job.py", "marcel/core.py:Command.execute"])
p("Lexing never loses or invents text",
  "Tokenizing a command line terminates and the tokens, in order, are substrings of the line separated only by whitespace and comments; or a parse error is reported.",
  "every string",
  "All strings; unterminated quotes and brackets anywhere.",
  ["marcel/parser.py:Lexer,Token,Expression,String,ShellString"])
p("String literals denote the quoted text",
  "For every text there is a quoted form that the parser reads back as exactly that text; quotes and escapes are removed only where they are syntax.",
  "every string",
  "All strings, all escape patterns.",
  ["marcel/stringliteral.py:StringLiteral", "marcel/parser.py:String"])
p("Command flags and arguments are separated unambiguously",
  "Parsing an operator's arguments assigns every given token to exactly one flag, flag value or anonymous argument, in order, or reports a usage error; nothing is silently dropped.",
  "every declared set of flags, every token list",
  "All permutations and positions.",
  ["marcel/argsparser.py:ArgsParser.parse,PipelineArgsParser"])
p("Script continuation lines",
  "Splitting a script into commands keeps every non-blank line, joins exactly the lines ending in backslash with their successor, and preserves order.",
  "every script text",
  "All line patterns.",
  ["marcel/main.py:MainScript"])
p("The directory stack is consistent",
  "After any sequence of cd/pushd/popd/dirs, PWD is the process's working directory and the top of the stack; pushd followed by popd restores both; failed operations change nothing.",
  "every sequence of directory commands over every file system state",
  "All histories and failure points.",
  ["marcel/directorystate.py:DirectoryState"])
p("A reservoir never has a reader and a writer at once",
  "A stored stream is not opened for writing while it is being read or written, nor for reading while written; misuse is refused and leaves the contents unchanged.",
  "every history of opens and closes over every set of reservoirs",
  "All interleavings.",
  ["marcel/picklefile.py:PickleFile", "marcel/reservoir.py"])
p("load returns what was stored",
  "Loading a reservoir yields exactly the tuples stored by the last non-append store followed by those of later append stores, in order.",
  "every history of completed stores",
  "All histories.",
  ["marcel/op/store.py:Store", "marcel/op/load.py:Load", "marcel/picklefile.py:PickleFile.Writer,PickleFile.Reader"])
p("At most one process owns a workspace",
  "Two live processes never both hold the lock of a workspace.",
  "every number of processes, every interleaving of file-system steps, every crash point",
  "Interleavings and crashes.",
  ["marcel/object/workspace.py:Workspace,WorkspaceNamed,Marker"])
p("Job states",
  "A dead job never comes back; at most one job is in the foreground; killing, pausing and resuming follow the documented transitions.",
  "every sequence of fg/bg/kill/signal/termination events",
  "All histories.",
  ["marcel/job.py:Job,JobControl"])
p("fork delivers all workers' output",
  "The output of fork contains, for each worker, all its output in order.",
  "every number of workers, every output length, every arrival schedule",
  "Schedules.",
  ["marcel/op/forkmanager.py:ForkManager"])
p("Reading a CSV file yields one tuple per line",
  "read --csv yields one tuple per line of the file, in order, with --headings keyed by the first line.",
  "every file content",
  "All line patterns.",
  ["marcel/op/read.py:CSVReader,InputIterator"])
p("ls visits each file once and terminates",
  "ls -r outputs each file under the given roots exactly once and terminates even with symlink cycles.",
  "every finite file tree with symlinks, every root list",
  "All graphs.",
  ["marcel/op/filenamesop.py:FilenamesOp", "marcel/op/filenames.py"])
p("History ids are stable",
  "The id shown by history for a command, used in edit/run, designates that command, and keeps designating it as more commands are entered.",
  "every history and id",
  "All lengths.",
  ["marcel/op/history.py:History", "marcel/reader.py:Reader.command_by_id"])
p("JSON values survive parsing and formatting",
  "json_parse gives the value of the text, with objects whose members are found under their keys, and json_format of it gives a text with the same value.",
  "every JSON value",
  "All nestings and keys.",
  ["marcel/jsonutil.py", "marcel/structish.py"])
p("Startup migrates any earlier storage layout to the current one",
  "From every layout in which some version of marcel left its files, startup reaches the current layout by a finite chain of migrations, and the user's configuration, workspaces and reservoirs are kept.",
  "every recognized layout",
  "All starting layouts.",
  ["marcel/persistence/storagelayout.py:ensure_current", "marcel/persistence/storagelayout.py:StorageLayout"])
p("Arguments of a script are parsed completely",
  "parse_args, given a script's arguments, assigns every flag and positional argument once, or reports an error.",
  "every list of arguments and declaration",
  "All permutations.",
  ["marcel/cliargs.py"])
p("cast converts by position",
  "cast t1..tk applies ti to component i, leaves None and extra components alone and keeps arity.",
  "every tuple and type list",
  "All shapes.",
  ["marcel/op/cast.py:Cast.receive"])
p("write passes its input through",
  "write outputs every input tuple unchanged, in order, even when writing one of them fails.",
  "every stream and failure pattern",
  "All failure patterns.",
  ["marcel/op/write.py:Write.receive"])
p("Parenthesised expressions become the right kind of function",
  "`(x, y: e)` is a function of x and y, `(e)` a function of no arguments or of the declared count, with the same meaning regardless of spacing, strings and nested brackets in e.",
  "every expression text",
  "All token sequences.",
  ["marcel/parser.py:Expression.value", "marcel/function_args_parser.py"])
p("Closing and reopening a workspace keeps its variables",
  "After any history of assignments, deletions and pipeline calls, closing a workspace and opening it again gives every variable the value it had when the workspace was closed.",
  "every history of commands and every set of variables",
  "All histories, with nested calls.",
  ["marcel/nestednamespace.py:NestedNamespace.to_persistent_state", "marcel/object/workspace.py:Workspace.open", "marcel/object/workspace.py:VarHandler.delvar"])
p("A line is parsed as the grammar says",
  "Every line that the documented grammar derives is accepted and stands for the operators, arguments, parameters and redirections of its derivation (`> f` for write f, `>> f` for write --append f, `>$ v` for store, `< f` for read, ...); no other line is accepted; parsing always ends.",
  "every line of text, every set of executables",
  "All texts, all nestings of pipelines.",
  ["marcel/parser.py:Parser.command", "marcel/parser.py:Parser.pipeline", "marcel/parser.py:Parser.op_sequence", "marcel/parser.py:Parser.arg", "marcel/parser.py:Parser.vars"])
p("A saved pipeline or function, when recompiled, is what was written",
  "The text kept for a pipeline `(| ... |)` or a function, compiled again (after the workspace is reopened, in a job or on a remote host), gives the same parameters, operators and arguments as the original command.",
  "every pipeline and function text",
  "All texts.",
  ["marcel/parser.py:PipelineSourceTracker.__exit__", "marcel/parser.py:Parser.parse_pipeline", "marcel/nestednamespace.py:EnvValue.wrap", "marcel/nestednamespace.py:CompilableFunction.reconstitute", "marcel/nestednamespace.py:CompilablePipeline.reconstitute"])
p("What write writes, read reads back",
  "Tuples written with `write --csv F` (or --tsv, with or without --append, or as text) are read back by `read` with the same option: the same tuples, in order, components as text, None as an empty field; a tuple that cannot be written costs only itself; errors arriving at write are written or reported.",
  "every stream of tuples and errors, every content of the file before",
  "All component texts (quotes, delimiters, blanks) and all failure patterns.",
  ["marcel/op/write.py:Write.receive", "marcel/op/write.py:Write.receive_error", "marcel/op/write.py:CSVWriter", "marcel/op/write.py:DefaultWriter", "marcel/op/read.py:CSVReader"])
p("Completing a filename gives a word that designates the file",
  "The tab key offers exactly the files of the directory typed so far whose names start like the last component; choosing one leaves on the line one argument that stands for that file, and as a filename argument it designates that file and no other; a directory gets a slash, another file a blank.",
  "every directory content, every word typed (plain, escaped or quoted), every name",
  "All characters in names; escaping must agree with the lexer and with the interpretation of filenames.",
  ["marcel/tabcompleter.py:FilenameHandler", "marcel/tabcompleter.py:ArgHandler", "marcel/parser.py:String.scan", "marcel/op/filenames.py:Filenames.normalize"])
p("Filename arguments designate the files they name",
  "The filename arguments of ls, read, rm, mv and the like designate, once each and in order, the existing files they name: an absolute or relative path, ~ and ~user, . and .., and the patterns *, ?, [..], ** as pathlib defines them; a File designates itself.",
  "every file system, current directory, list of arguments",
  "All patterns, names and directory trees.",
  ["marcel/op/filenames.py:Filenames.normalize", "marcel/util.py:unescape"])
p('An external command reaches bash as it was typed',
  'When a command names an executable, bash receives that name and, in order and unchanged, the words that were typed after it, however they are quoted or escaped, up to the pipe, redirection or comment that ends them; and the reading of the line goes on from there.',
  'every list of words with any quoting, every executable name',
  'All mixtures of quotes, escapes, blanks and separators; the lexer, the argument parser and the joining of arguments must agree with the division into words bash does.',
  ['marcel/parser.py:Parser.create_op_executable', 'marcel/parser.py:String.scan', 'marcel/op/bash.py:BashArgsParser', 'marcel/op/bash.py:Bash.setup'])
p('Each line an external command prints arrives once, in order',
  'Each line that an external command writes to its standard output becomes a value, and each line it writes to standard error an Error, for the operators that follow: once, whole, in the order of the stream, promptly, and before they are told that there is no more; and once the command has ended they are told.',
  'every command output, in every division into writes, and every interleaving of the command, the reading thread and the thread that passes on the input',
  'The schedule decides what select, readline and poll see; a race loses output only when the command ends in a small window.',
  ['marcel/op/bash.py:ProcessOutputHandler.run', 'marcel/op/bash.py:NonInteractive', 'marcel/op/bash.py:Bash.flush'])
p('Pipelines in the Python API: composition, gather, first, iteration',
  "In Python, a | b is the pipeline of a's operators followed by b's, and leaves a and b as they are; gather returns everything a pipeline delivers, values and Errors, in order; iterating over the pipeline gives the same; first returns the first thing delivered, raising if it is an Error, and does not run the rest; Errors go to the list given as errors.",
  'every program that builds pipelines with |, every pipeline and stream, however the run ends',
  'Aliasing between pipelines built from common parts shows only in the order in which they are built and used; early ends and Errors can come anywhere.',
  ['marcel/pipeline.py:OpList.__or__', 'marcel/pipeline.py:PipelineIterator', 'marcel/api.py:gather', 'marcel/api.py:first', 'marcel/op/apiop.py:APIOp'])
p('upload and download pass file names to scp as they are',
  'upload and download run scp on each host with exactly the files named (whatever characters their names contain: blanks, quotes, dollar signs, line ends), the key file, the port, and the target directory, each as one argument; scp takes the files of upload for local ones and the others for files of that host.',
  'all file names, target directories, users, addresses, key files and ports',
  'The shell gives a meaning to any character of a name; a test quotes a few.',
  ['marcel/op/upload.py:Upload.scp_command', 'marcel/op/download.py:Download.scp_command', 'marcel/util.py:quote_files', 'marcel/op/bash.py:Bash.setup'])
p('What sql makes permanent, and when',
  'Without --commit and --autocommit, wherever execution stops (failing statement, failure elsewhere in the pipeline, crash), either nothing or, after the end of the stream, everything the command did is permanent. With --commit N, it is what the first statements did, and the later ones updated less than N rows, not counting the statement at which it stopped. With --autocommit it is what all executed statements did. A command that ends normally has made everything permanent. ARGs, if given, are bound to the parameters, else the input.',
  'every database and statement, every stream, update counts, failures of statements, commits and later operators, and every point at which execution stops',
  'Crash points between statement and commit, and failures at each place of the pipeline, are too many to provoke in tests.',
  ['marcel/op/sql.py:Sql', 'marcel/op/sql.py:SqlStatement.commit_if_necessary', 'marcel/object/db.py:Connection', 'marcel/op/runpipeline.py:RunPipeline'])
p('Workspaces on disk survive crashes, and damaged ones are put aside without loss',
  "ws --new makes exactly the files of a workspace, with the default workspace's startup script and no variables; wherever it is interrupted, what is left is nothing, a whole workspace, or a workspace the next start reports as damaged. Opening a workspace gives the variables stored when it was last closed, by whichever process. Opening or deleting one that a live process has open fails and changes nothing. Deleting removes everything; interrupted, it leaves a workspace with all its contents, a damaged one, or nothing. All this touches no other file. A start reports exactly the damaged workspaces, moves each with its files to the broken directory, and leaves the others usable and unchanged; even interrupted, it loses no file. ws --list gives the default workspace and exactly the existing ones, once each, by name.",
  'every file system with any number of workspaces, every name, content, process state, and every point at which a process is stopped',
  'Each operation has many crash points, and each start deals with whatever combination of damage there is; tests see a few layouts and no crashes.',
  ['marcel/object/workspace.py:Workspace', 'marcel/object/workspace.py:WorkspaceValidater', 'marcel/persistence/persistence.py:validate_all', 'marcel/main.py:MainScript.handle_persistence_validation_errors', 'marcel/locations.py:Locations', 'marcel/op/ws.py'])
p('Every command entered is run once, in order, and the shell survives',
  "Every line typed at the prompt is run at most once, none is run that was not typed, and order is kept, whatever the commands do and however often the shell reconfigures itself. Every line read is run (unless a startup script is modified meanwhile). Commands are run one after the other, each in the workspace chosen last, each starting from the state its predecessor left; a command that fails or is interrupted does not end the session; entering a workspace runs its startup commands first. The session ends only at ctrl-D, or because of exit, of an uncontained failure, or of a workspace that cannot be opened. A script's commands are run once each, in order.",
  'every behaviour of the commands (state changes, endings, recalled commands), every sequence of lines, ctrl-C and outside changes, every behaviour of opening workspaces, every number of steps; every script',
  'The loop is left and re-entered by a dozen exceptions in combinations no test enumerates; tests run single commands through parse_and_run_command and never the loop.',
  ['marcel/main.py:MainInteractive.run', 'marcel/main.py:MainScript.parse_and_run_command', 'marcel/main.py:main_interactive_run', 'marcel/main.py:main_script_run', 'marcel/main.py:main', 'marcel/env.py:EnvironmentInteractive.take_next_command', 'marcel/op/run.py:Run'])
p('Help shows what its author wrote',
  'A help text that follows the markup language is displayed completely: formatting it ends, without an error; every character that is not whitespace is displayed, in order, with the color the markup gives it, and nothing else is. Its paragraphs are those of the language: explicit ones, and where empty lines meet other lines. In a wrapped paragraph, words are kept whole and in order, lines are indented as asked, and are not wider than the columns unless they have nowhere to break; the lines of other paragraphs are kept as they are, indented.',
  'every document of the markup language (text, escapes, styles, paragraph and list markup with any arguments) and every width',
  'Markup, wrapping and coloring are done in three passes that agree only through counts of characters: whether they agree depends on the combination of escapes, markup, line breaks and width.',
  ['marcel/helpformatter.py:HelpFormatter.format', 'marcel/helpformatter.py:TextPointer', 'marcel/helpformatter.py:TextMarkup', 'marcel/helpformatter.py:Paragraph', 'marcel/helpformatter.py:ParagraphMarkup', 'marcel/op/help.py:Help'])
p('Functions work wherever the command runs',
  'A function written in a command can be called wherever the command is executed: in a script, in a command typed at the prompt (which runs in another process), and in the pipelines that fork, sudo and remote execution hand to other processes, at any depth of nested pipelines. The execution never fails because the function is missing.',
  'every command: any operators, with functions in any of their arguments, and pipelines nested to any depth',
  'Tests run commands in the main process, where every function has been compiled by the parser. Whether a function is missing in another process depends on the operator, the argument, and the whole chain of enclosing pipelines.',
  ['marcel/function.py:SourceFunction', 'marcel/job.py:run_command_in_child', 'marcel/core.py:Op.ensure_functions_compiled', 'marcel/core.py:Op.eval_function', 'marcel/pipeline.py:PipelineMarcel', 'marcel/op/case.py:Case.ensure_functions_compiled', 'marcel/op/forkmanager.py:ForkManager', 'marcel/op/gen.py:Gen.ensure_functions_compiled'])
p('A repeated end of stream changes nothing',
  'An operator that is told more than once that its input has ended gives the same output, and fails or succeeds in the same way, as if it had been told once. So tail, args and union, which repeat the end of the stream, can be followed by any operators.',
  'every pipeline of operators, with pipelines nested to any depth; every input stream, with errors in it; any number of repetitions',
  'The tests compare the output of particular pipelines. Whether a second end of stream is harmless depends on the state in which the first leaves each operator, whatever its input was, and on the operators after it.',
  ['marcel/op/tail.py:Tail.flush', 'marcel/op/args.py:Args.flush', 'marcel/op/sudo.py:Sudo.run', 'marcel/op/union.py:Union.flush', 'marcel/op/window.py:WindowOverlap.flush', 'marcel/op/red.py:GroupingReducer.flush', 'marcel/op/sort.py:Sort.flush', 'marcel/op/reverse.py:Reverse.flush', 'marcel/op/case.py:Case.flush', 'marcel/core.py:Op.propagate_flush'])
p('remote and sudo deliver the output of the pipeline',
  'remote runs the pipeline on each host of the cluster. Every tuple that the pipeline outputs on a host is received once, in order, with the host put before it; an error (or the exception that ends the pipeline there) is received as an error labelled with the host. If the connection is lost, what is received is the beginning of it. sudo does the same, without labels; a pipeline that contains sudo can be run any number of times.',
  'every cluster; everything the pipeline may output on each host, with errors, exceptions, printed text and lost connections; every schedule of the processes',
  'Needs several machines, lost connections, and all interleavings of the processes that talk to them.',
  ['marcel/op/remote.py:Remote', 'marcel/op/remote.py:RunRemote.run', 'marcel/op/remote.py:LabelThread', 'marcel/op/sudo.py:Sudo', 'bin/farcel.py:PickleOutput', 'bin/farcel.py:PipelineRunner.run', 'marcel/op/forkmanager.py:ForkWorker.consume_input'])
p('Hosts of a cluster',
  'A cluster is made of the hosts given: each a name or address, or that and a port number; anything else is rejected. Hosts in the output of remote, upload and download can be told apart, and compared with those of the cluster. The ssh and sudo commands get exactly the key file, port, user, address and flags that were given.',
  'every configuration of a cluster, every pair of hosts, every text of the parts of the command',
  'The tests use a few literal configurations; which configurations are accepted and how a command line is read ranges over all texts and values.',
  ['marcel/object/cluster.py:Cluster.__init__', 'marcel/object/cluster.py:Host.ensure_initialized', 'marcel/object/cluster.py:Host.__eq__', 'marcel/op/remote.py:RunRemote.farcel_invocation', 'marcel/plat.py:Platform.remote_farcel_invocation', 'marcel/op/sudo.py:Sudo.run'])
p('API functions give their operators exactly what the caller passes',
  'A call of an API function (gen(...), ls(...), write(...), ...) gives the operator exactly the parameters of the call: each switch that is on and no other, each named parameter its (converted) value, the positional parameters in order, defaults for those left out. A call is refused exactly if a value cannot be converted, a mandatory parameter is missing, or parameters exclude each other.',
  'every API function, every combination of parameters, all values, every conversion',
  'The tests call the functions with a few literal values; the values that are mistaken for flags are strings of any form.',
  ['marcel/api.py:_generate_op', 'marcel/argsparser.py:ArgsParser.parse', 'marcel/op/args.py', 'marcel/op/bash.py', 'marcel/op/env.py', 'marcel/op/gen.py', 'marcel/op/ls.py', 'marcel/op/read.py', 'marcel/op/red.py', 'marcel/op/sql.py', 'marcel/op/trace.py', 'marcel/op/window.py', 'marcel/op/write.py'])
p('ps reports the processes asked for',
  'ps reports, in order, exactly the processes asked for: all, those of a user or group (the current one, or given by name or, if there is no such name, by number), the one with a process number, those whose name, executable or command line contains a text. An unknown user or group and a number that is none are reported as errors. Running it again, or through the API, gives the same.',
  'every list of processes, every user and group database, every request',
  'The processes of a machine cannot be controlled by a test: unreadable owners, numeric names, no matching process.',
  ['marcel/op/ps.py:Ps.setup', 'marcel/op/ps.py:Ps.run', 'marcel/op/ps.py:Ps.convert_to_id', 'marcel/op/ps.py:ps', 'marcel/util.py:uid', 'marcel/util.py:gid'])
p('Variables have their values in every process and every session',
  'A variable has the value last assigned to it or imported under its name: in the shell, in each process started for a command, in the workers of fork, however deeply nested, and when the workspace is closed and opened again.',
  'every history of assignments, imports and reopenings; all values (text, data, functions, modules, pipelines); every nesting of processes',
  'Functions are evaluated again in each process, from their source, in the order of the first assignments to the variables; the histories in which this goes wrong are not those a test writes.',
  ['marcel/nestednamespace.py:EnvValue.wrap', 'marcel/nestednamespace.py:Scope', 'marcel/nestednamespace.py:NestedNamespace.from_persistent_state', 'marcel/env.py:Environment.__getstate__', 'marcel/env.py:Environment.__setstate__', 'marcel/object/workspace.py:Workspace.open', 'marcel/object/workspace.py:Workspace.close', 'marcel/object/workspace.py:Workspace.lock_workspace', 'marcel/op/assign.py:Assign', 'marcel/op/import.py:Import', 'marcel/op/forkmanager.py:ForkManager', 'marcel/job.py:Job'])
p('A listing says what the files are',
  'Each line of a listing of files shows the type, permissions, owner, group, size, date and path of one file, so that they can be read off again, whatever the colors; lines are aligned; different files have different paths, relative to the nearest directory containing all that was asked for; the color is that of the extension or else of the kind of file. What a File object says about its file is of one moment (for ls: when it was found), however the file changes, and in every process it is sent to. ls -f, -d, -s pass on exactly the files of those kinds.',
  'every file mode, owner, group, size, date, path, link target and color scheme; every set of files listed; every history of changes to the file between the uses of the object',
  'The combinations of modes, widths and paths are unbounded; the races between looking at a file and using it cannot be provoked by a test.',
  ['marcel/object/file.py:File', 'marcel/object/file.py:FileFormatting', 'marcel/object/file.py:File.__getstate__', 'marcel/object/file.py:File._mode_string', 'marcel/object/file.py:File._highlight_color', 'marcel/util.py:colorize', 'marcel/op/filenamesop.py:FilenamesOp.determine_base', 'marcel/op/ls.py:Ls.send_path'])
p('timer outputs timestamps at least the interval apart',
  'timer outputs times at which there was a tick, in order, none twice, each at least the interval after the one before, under every schedule of its threads and however long the rest of the pipeline takes. No tick is lost if the rest of the pipeline keeps up, and the threads cannot block each other.',
  'every interleaving of the threads, every passing of time, every interval',
  'The interleavings of two threads cannot be enumerated by tests.',
  ['marcel/op/timer.py:Timer.run', 'marcel/op/timer.py:Timer.register_tick', 'marcel/op/timer.py:Metronome.run'])
p('env shows exactly the variables asked for',
  "env outputs the variables asked for (all, the one named, those whose name contains a text; the shell's or, with --os, the host's) with their values, each once, sorted by name, without __builtins__ unless asked for, and changes nothing. A variable that is not defined is an error. env --delete outputs and removes the variable named and no other; variables that must not change are refused.",
  'every set of variables, every request the parser accepts',
  'The namespace, its names and values are arbitrary.',
  ['marcel/op/env.py:Env.run', 'marcel/op/env.py:EnvMarcel', 'marcel/op/env.py:EnvOS', 'marcel/object/workspace.py:Workspace.getvar', 'marcel/object/workspace.py:Workspace.delvar'])
p('import does what the Python statement does',
  'Each form of import changes the variables exactly as the Python statement on its help page does: import M, import M as N, from M import S, from M import S as N, from M import *. If the module or symbol does not exist the command is refused and nothing changes.',
  'all modules and packages, with and without __all__; all names; all variables before',
  'The modules that a user imports are arbitrary Python packages.',
  ['marcel/op/import.py:Import.setup', 'marcel/op/import.py:Import.run', 'marcel/util.py:import_module', 'marcel/object/workspace.py:Workspace.setvar_import'])
p('The startup script defines the session',
  "A workspace's startup script behaves as a Python module that sees marcel's names: after the session has started every name has the value that Python gives it, every name of marcel that the script does not assign has its documented meaning, the prompt is the one given to set_prompt, and the commands given to run_on_startup have been run once each, in order. A script that assigns MARCEL_VERSION, HOME, USER, HOST or WORKSPACE is refused, and commands cannot change the names it defines.",
  'all startup scripts (assignments, definitions, imports of marcel.builtin, calls), all sessions of a process, all saved variables',
  'Startup scripts are programs that users write; the tests run with the default one.',
  ['marcel/builtin.py', 'marcel/env.py:Environment.initial_namespace', 'marcel/env.py:Environment.create', 'marcel/env.py:Environment.never_mutable', 'marcel/configscript.py:ConfigScript', 'marcel/object/workspace.py:Workspace.open', 'marcel/main.py:MainScript.run_startup_scripts'])
p('The prompt shows what PROMPT says',
  'Each time a command is awaited, the terminal shows the strings of PROMPT and the results of its functions in order, each in the last color before it, and in the default colors before any; a function may evaluate to a color. PROMPT_DIR designates the current directory without ambiguity. No value of PROMPT ends marcel.',
  'all prompts: colors, strings, functions with any result or exception, other values; all current directories, home directories and workspace homes',
  'PROMPT is user code; the current and home directories are arbitrary.',
  ['marcel/env.py:EnvironmentInteractive.prompt', 'marcel/env.py:EnvironmentInteractive.prompt_string', 'marcel/util.py:colorize', 'marcel/object/color.py:Color'])
p('Tracing tells what happened and changes nothing',
  "With tracing on, the trace of a command shows, in order, every value each operator was given and every Error each operator reported or passed on, and nothing else; the command's own output and result are the same as without tracing. trace -1 and trace -f send the trace of all later commands to stdout or to the file, until changed; trace says where.",
  'all pipelines of the modelled operators, all inputs, Errors and ways of ending; all histories of trace commands, jobs, commands run by marcel itself, cd and workspace switches',
  'A trace interleaves with arbitrary data, errors and kills; where it goes depends on the whole history of commands.',
  ['marcel/env.py:Trace', 'marcel/op/trace.py:Trace', 'marcel/core.py:Op.send', 'marcel/core.py:Op.send_error', 'marcel/pipeline.py:PipelineExecutable.setup', 'marcel/pipeline.py:PipelineExecutable.run'])
p('A typed command line does what its words say',
  'A command line of operators separated by pipes does exactly what its words say, however it is laid out: each operator is the one its first word names, its arguments are the integers, functions, flags and nested pipelines written after it (an expression in parentheses standing alone is map), and the output of each operator is the input of the next. Blanks and a comment at the end change nothing.',
  'all lines made of gen followed by any number of map, select, squish, head, tail, reverse, sort, unique, window, expand, red, join, union, intersect, difference and filter, nested to any depth, with any expressions, words, numbers and layout',
  'The texts, nestings and layouts are unlimited; the property goes through the lexer, the parser, the argument parser, conversions and the operators together.',
  ['marcel/parser.py:Lexer', 'marcel/parser.py:Parser.parse', 'marcel/parser.py:Parser.create_op', 'marcel/argsparser.py:ArgsParser.parse', 'marcel/argsparser.py:ArgsParser.str_to_int', 'marcel/argsparser.py:ArgsParser.function', 'marcel/core.py:Op.eval_function', 'marcel/pipeline.py:PipelineExecutable'])
p('The reduction symbols compute what they are named after',
  'red and squish with the symbols + * ^ & | and or max min count concat give the sum (of numbers, strings, lists or tuples), product, bitwise and logical combinations, the first of the largest or smallest, the number and the list of the values, column by column, for all rows or for each group of rows with equal values in the places of the dots.',
  'all streams, any number of symbols in any order, all values the symbols apply to (integers, booleans, strings, lists, tuples), with and without grouping',
  'The streams and values are unlimited, and the wrong results depend on where in the stream a None is, or on when the output is looked at.',
  ['marcel/reduction.py', 'marcel/function.py:SymbolFunction', 'marcel/op/red.py:Red', 'marcel/op/squish.py:Squish'])
p('The tab key offers the operators and flags that may come next',
  'On a command line typed in part (complete operators and pipes, nested pipelines opened and not closed, then perhaps the beginning of a word) the tab key offers, in the place of an operator, the names of the operators that begin with what has been typed, or of executables if no operator does; in the place of a flag, the short and long flags of that operator which begin with what has been typed; elsewhere, files. Each offer is the rest of the name and a blank, and nothing else is offered.',
  'all lines of that form, of any length and depth of nesting, with blanks anywhere, all sets of executables, all operators and their flags',
  'The lines are unlimited, and what is offered depends on the state that a parser leaves behind at the place where it fails.',
  ['marcel/tabcompleter.py:TabCompleter', 'marcel/parser.py:PipelineSourceTracker', 'marcel/parser.py:Parser.set_op_arg_context', 'marcel/parser.py:Parser.flags'])
p('A session of ws commands does to workspaces what it says',
  "In a session, ws NAME (or --open) moves to an existing workspace, --new makes an empty one and moves to it, --close moves to the default workspace, --delete removes one that is neither current nor used by another process, --home records a directory for the current one, --list gives all names in order with their homes, ws alone the current one, --delete-broken removes exactly what was put aside. A command that cannot be carried out is refused and changes nothing. A workspace's variables and home are, whenever it is opened again, what they were when it was left, whatever was done in between in others.",
  'all sequences of ws commands and of changes of the variables in between, of any length; all usable names; all contents of the disk that have only complete workspaces; all sets of workspaces that other processes are using',
  'The sequences are unlimited, and each command saves, unlocks, locks and loads files that earlier ones left.',
  ['marcel/op/ws.py:ws', 'marcel/op/ws.py:WsArgsParser', 'marcel/op/ws.py:Ws', 'marcel/op/ws.py:WsImpl', 'marcel/object/workspace.py:Workspace', 'marcel/object/workspace.py:WorkspaceProperties', 'marcel/main.py:main_interactive_run'])
p('pos() is the position of the tuple in the input of the operator whose function calls it',
  'When a function given to an operator (map, select, squish, window, red, case) calls pos(), it gets the number of tuples that this operator has received before the present one, in the present run of the pipeline, whatever the operators before and after it do in between. Tuples for which a function failed are counted; errors are not.',
  'all pipelines of any length and nesting (case, args), all functions, all inputs, failures included; all sessions in which pipelines are run repeatedly',
  'pos() reads the counter of the operator that received something last, and operators run inside the sends of others: what it is depends on the interleaving in the whole pipeline.',
  ['marcel/core.py:Op.receive_input', 'marcel/core.py:Op.pos', 'marcel/core.py:Op.send', 'marcel/core.py:Op.propagate_flush', 'marcel/api.py:pos', 'marcel/env.py:Environment', 'marcel/op/args.py:Args', 'marcel/op/case.py:Case', 'marcel/op/sort.py:Sort', 'marcel/op/expand.py:Expand'])
p('parse_args gives the variables of a script the values on its command line, or ends the script',
  "If a script declares flags, boolean flags, int flags and anon() with parse_args, and the command line is made of uses of these flags and of other words, then each variable has the value of the last use of its flags (True for a boolean flag, the number for an int flag), or its default if there is none; the variable of anon() is the list of the other words after the script's name; ARGV is the command line without the program; no other variable changes. If a required flag is missing, or the command line is not made of such uses, no variable is changed and the script ends.",
  'all declarations, all command lines of any length, all workspaces, all scripts',
  'the command lines and sets of declared flags are infinite, and flags, values and words may come in any order and repeatedly.',
  ['marcel/cliargs.py:CommandLine', 'marcel/cliargs.py:FlagArg', 'marcel/cliargs.py:parse_args', 'marcel/cliargs.py:flag', 'marcel/cliargs.py:boolean_flag', 'marcel/cliargs.py:int_flag', 'marcel/cliargs.py:anon', 'marcel/main.py:main_script_run', 'marcel/main.py:MainScript.parse_and_run_command', 'marcel/core.py:Op.call', 'marcel/env.py:Environment'])
p('The variables that jobs change reach the shell, once each, whatever the schedule',
  'Commands that run in jobs send the variables they changed to the shell. Every assignment made on behalf of a job is one the job reported, the changes of a job are applied completely, in order, without those of other jobs in between, at most once, and only after the job has sent them. As long as the thread that receives them keeps running, changes that have been sent are applied eventually, it never deadlocks with the shell, and when no job is listened to any more everything sent has been applied. If each command is entered when all jobs have ended and their changes have been applied, the variables are those of a session in which the commands are run one after the other in one process.',
  'all sequences of commands, all interleavings of the shell, the receiving thread and the jobs, including kills, pauses and exits at any moment; infinite runs for liveness',
  'the interleavings of three kinds of threads are infinite, and the failures need a job that is killed or paused in the middle of a write.',
  ['marcel/job.py:ChildListener', 'marcel/job.py:Job.start_process', 'marcel/job.py:run_command_in_child', 'marcel/job.py:JobControl.shutdown', 'marcel/job.py:JobControl.wait_for_idle_foreground', 'marcel/main.py:MainInteractive.update_namespace', 'marcel/main.py:MainInteractive.run', 'marcel/object/workspace.py:VarHandler.changes', 'marcel/object/workspace.py:VarHandler.setvar'])
p('Pipelines given to args and case in the Python API: each call runs its own pipeline',
  'gather(xs | args(f)), f being a function that makes a pipeline: the inputs are taken in groups of as many as f has parameters, the last group being completed by None (with all=True, there is one group, the list of all inputs), and what is delivered is, in order, what the pipelines f returns for these groups deliver when each is run by itself; this holds whenever the same args is run, however often it has been run before. gather(xs | case(...)): each tuple is given to the pipeline of the first condition that holds, and to no other; what the pipelines deliver for the tuples is delivered in order, followed by what they deliver at the end.',
  'all functions that make pipelines of any operators, with any number of parameters, all inputs, any number of runs of the same pipeline, all recursion limits above the size',
  'operators, functions, inputs and numbers of runs are unbounded; the failures need a function that returns an existing pipeline, a branch of several operators, a local variable or an earlier failure.',
  ['marcel/pipeline.py:PipelineFunction', 'marcel/pipeline.py:PipelineFunction.create_executable', 'marcel/pipeline.py:PipelineFunction.run_pipeline', 'marcel/pipeline.py:PipelineFunction.append_immutable', 'marcel/pipeline.py:PipelineOpList.setup', 'marcel/pipeline.py:OpList.__or__', 'marcel/pipeline.py:PipelineExecutable.append_immutable', 'marcel/op/args.py:Args', 'marcel/op/case.py:Case', 'marcel/op/redirect.py:Redirect', 'marcel/core.py:Op.send', 'marcel/core.py:Op.flush'])
p('Files, processes and history records as values: equal, ordered and usable as keys',
  'A file is its path (repeated slashes, trailing slashes and . components do not matter), a process its number, a history record its number. == says whether two values are the same in this sense (in tuples and lists, position by position), equal values have the same hash, and < is a total order on values of the same kind: files by the components of their paths, processes and history records by number. So, for streams of such tuples: unique outputs the first of each set of equal tuples, unique -c those that differ from the one before, difference leaves out as many equal tuples as there are on the right, join matches tuples whose first components are equal, and sort outputs a permutation that is sorted, equal tuples staying in order.',
  'all streams of tuples of files, paths, processes, history records, errors, numbers, strings, None, tuples and lists of these; all hash functions',
  'the laws of == and < are about all pairs and triples of values, and hashes of strings differ from run to run; the failures need a collision or a mixture of types in one column.',
  ['marcel/object/file.py:File.__eq__', 'marcel/object/file.py:File.__hash__', 'marcel/object/file.py:File.__lt__', 'marcel/object/process.py:Process.__eq__', 'marcel/object/process.py:Process.__hash__', 'marcel/object/process.py:Process.__lt__', 'marcel/object/historyrecord.py:HistoryRecord.__eq__', 'marcel/object/historyrecord.py:HistoryRecord.__lt__', 'marcel/object/error.py:Error', 'marcel/op/unique.py:GeneralUniquer', 'marcel/op/unique.py:ConsecutiveUniquer', 'marcel/op/difference.py:Difference', 'marcel/op/join.py:Join', 'marcel/op/sort.py:Sort'])
p('Every variable has a stream of its own, which only commands that name it change',
  'Over any sequence of commands: load x outputs what the last store to x put there, followed by what was appended since, and is refused if x holds anything else or nothing; store --append is refused if x has a value other than a stream or None; assigning, deleting or storing to a variable changes no other variable; a store to the parameter of a pipeline is a store to the stream that was passed, and nothing else; a pipeline that fails leaves in x what had arrived, if x was a stream; and when the session ends no file of a stream is left behind.',
  'all sequences of store (to variables and to parameters, completed or failing at any point), load, assignment, assignment of one variable to another, and deletion; in scripts and in interactive sessions',
  'which file belongs to which variable depends on the whole history of assignments; aliasing and files left by failed jobs show only many commands later.',
  ['marcel/op/store.py:Store.setup', 'marcel/op/load.py:Load.setup', 'marcel/op/load.py:Load.run', 'marcel/object/workspace.py:VarHandler.setvar', 'marcel/object/workspace.py:VarHandler.delvar', 'marcel/object/workspace.py:WorkspaceDefault.close', 'marcel/locations.py:Locations.data_ws_res', 'marcel/picklefile.py:PickleFile.ensure_deleted', 'marcel/op/assign.py:Assign.run', 'marcel/op/env.py:EnvMarcel.delete_var', 'marcel/main.py:MainInteractive.update_namespace'])
p('A remote command is over on the host when it is over for the user',
  'When a pipeline is run on another host (or by sudo): the process that runs it ends only after the pipeline has, with everything that the pipeline output in its output, whatever other processes do meanwhile; once the pipeline is over that process ends too, after a number of its own steps bounded by the number of processes left; processes that the pipeline started are sent SIGTERM then, and none of them is left; a request that the host does not understand is reported.',
  'all pipelines (of any length, or without end), all requests, all interleavings of the two threads with the forking and ending of any number of other processes',
  'which processes are still there, and which end between the look and the signal, depends on the schedule.',
  ['bin/farcel.py:main', 'bin/farcel.py:kill_descendents', 'bin/farcel.py:PipelineRunner.run', 'bin/farcel.py:PickleOutput.receive', 'marcel/op/remote.py:Remote.RunRemote.run', 'marcel/op/sudo.py:Sudo.run'])
p('Colors only change colors',
  "Processes, records of the history, errors, workspaces, color schemes and other values are shown on the terminal with the same characters whatever the color scheme; each part has the color and the style that the scheme assigns to it, no color spreads to what follows, and objects written to a file have these characters and no colors. A color made without complaint is the place of the 6x6x6 cube that was asked for. An attribute of the scheme can be set exactly if it exists and the value is a color, None, or a dict of colors; this changes no other attribute, and everything can be shown with any scheme made in this way. The colors of extensions are those of the file's last extension.",
  'all objects of these kinds, all sequences of them, all texts in them, all color schemes and all assignments to them, all colors',
  'every text with every scheme: a test sees one string, not what a terminal makes of all of them.',
  ['marcel/util.py:colorize', 'marcel/util.py:print_to_stderr', 'marcel/object/color.py:Color', 'marcel/object/color.py:ColorScheme', 'marcel/op/write.py:DefaultWriter', 'marcel/object/process.py:Process.render_full', 'marcel/object/historyrecord.py:HistoryRecord.render_full', 'marcel/object/error.py:Error.render_full', 'marcel/object/workspace.py:Workspace.render_full', 'marcel/object/file.py:File._highlight_color'])
p('marcel runs the commands it is given, however it is given them',
  'marcel SCRIPT ... runs exactly the commands of the script, in order, whatever standard input is, or says that there is no such file; text given to marcel on standard input, through a pipe or from a file, is run as if it were a script; without a script and at a terminal, and only then, marcel prompts.',
  'all texts, all kinds of standard input, all arguments, all files',
  'three ways to read the same text must agree on all texts.',
  ['marcel/util.py:InputSource', 'marcel/main.py:main', 'marcel/main.py:read_heredoc', 'marcel/main.py:read_script', 'marcel/main.py:commands_in_script', 'marcel/main.py:MainInteractive.run'])
p('edit opens the right text in the right editor',
  'edit -s opens the startup script of the current workspace, and edit -s NAME that of the workspace NAME, in the editor named by EDITOR in marcel, or else in the environment of the process; the path reaches the editor as one argument; without EDITOR, or for a command or a workspace that does not exist, the user is told, and nothing is left behind; edit without arguments edits the last command; and no other command is taken for edit.',
  'all values of EDITOR, workspaces, directories, histories, numbers, editors and white space around the arguments',
  'all names of workspaces and all histories; what is left behind on failure is visible only over many failures.',
  ['marcel/op/edit.py:Edit.run', 'marcel/op/edit.py:Edit.setup', 'marcel/op/edit.py:EditArgsParser', 'marcel/runeditor.py:find_editor', 'marcel/runeditor.py:run_editor', 'marcel/runeditor.py:edit_text', 'marcel/reader.py:Reader.handle_edit_and_run', 'marcel/locations.py:Locations.config_ws_startup'])
p('help knows its topics, and the tab key completes them and user names',
  'help NAME shows the page of the operator or topic NAME, in upper or lower case, and says so if there is none; after help and part of a name, the tab key offers exactly the names that have a page and begin with that part, each once; after ~ and part of a name, exactly the users whose names begin with it, in order, and completes to ~NAME/.',
  'all names, all words typed so far, all files of users',
  'all prefixes of all names, quoted and escaped.',
  ['marcel/op/help.py:Help.run', 'marcel/op/help.py:Help.setup', 'marcel/opmodule.py:OpModule.help', 'marcel/doc/__init__.py:topics', 'marcel/tabcompleter.py:HelpTopicHandler', 'marcel/tabcompleter.py:UsernameHandler', 'marcel/tabcompleter.py:ArgHandler'])
p('run N runs command N again',
  'run N executes command N of the history once, and nothing else; a number that no command has leads to nothing but a message; run commands that ask only for older commands always come to an end; run without a number runs the previous command.',
  'all histories, all lines that ask for a number, however spaced, all sequences of commands',
  'all histories and all chains of run commands.',
  ['marcel/op/run.py:Run.run', 'marcel/op/run.py:RunArgsParser', 'marcel/reader.py:Reader.command_by_id', 'marcel/env.py:EnvironmentInteractive.take_next_command', 'marcel/main.py:MainInteractive.run'])
p('bg, fg and jobs mean the same job',
  'jobs lists the jobs that have not finished, in order of their start, each with its number, state, process and command; bg N and fg N act on the job with that number and no other; another number leads to a message and nothing else; -j N means job N and -p P the job of process P.',
  'all lists of jobs, running or finished, and all numbers',
  'which jobs have finished at which moment is up to the system.',
  ['marcel/op/jobop.py:JobOp.setup', 'marcel/op/jobop.py:JobOpArgsParser', 'marcel/op/jobs.py:Jobs.run', 'marcel/op/bg.py:Bg.action', 'marcel/op/fg.py:Fg.action', 'marcel/job.py:JobControl.job', 'marcel/job.py:JobControl.jobs', 'marcel/job.py:JobControl.remove_completed'])
p('Quotes do not change a word',
  'An argument that is a word means the same to an operator whether it is written plainly, with backslashes, or in single or double quotes.',
  'all words, all ways of writing them, all kinds of arguments that operators declare',
  'the words, and the ways to write them, are unbounded; whether quotes matter depends on how each operator converts each argument.',
  ['marcel/argsparser.py:ArgsParser.str_to_int', 'marcel/argsparser.py:ArgsParser.function', 'marcel/argsparser.py:ArgsParser.check_str', 'marcel/argsparser.py:ArgsParser.check_str_or_file', 'marcel/argsparser.py:ArgsParser.fork_gen', 'marcel/argsparser.py:ArgsParser.cluster', 'marcel/argsparser.py:Arg.eval_if_string_listeral', 'marcel/stringliteral.py:StringLiteral', 'marcel/util.py:string_value'])
p('fork runs its pipeline for each id, and reports failures',
  'fork N runs the pipeline for the thread ids 0 to N-1, fork with an iterable for each of its elements; each instance has its own id and all it produces is output; N that is not positive, an empty iterable and anything else is refused. A failure in an instance is reported. The pipeline may be any pipeline, so it may contain fork.',
  'all generators, pipelines (nested), outputs, failures and schedules',
  'the failures may be anywhere in any pipeline, and pipelines may be nested without bound.',
  ['marcel/op/fork.py:Fork.setup', 'marcel/op/forkmanager.py:run_pipeline_in_child', 'marcel/op/forkmanager.py:SendToParent', 'marcel/op/forkmanager.py:ForkManager', 'marcel/op/forkmanager.py:ForkWorker.start', 'marcel/pipeline.py:PipelineMarcel.run_pipeline'])
if __name__=='__main__':
    with open('/verif/properties.jsonl','w') as f:
        for x in P: f.write(json.dumps(x)+'\n')
    print(len(P))

(** Help, and the tab key on help topics and names of users: marcel/op/help.py:45-93, marcel/opmodule.py:25-84 (the part about HELP),
    marcel/doc/__init__.py:16-28, the names of the modules in marcel/doc, marcel/tabcompleter.py:198-285 (ArgHandler, HelpTopicHandler,
    UsernameHandler).

    Simplifications: characters have 8 bits; /etc/passwd can be read; the layout of help is in Syntax/Help.v. *)
From Coq Require Import Ascii String List Bool Arith.
From Verif.Syntax Require Import Lexer Complete.
From Verif.Syntax Require Tab.
From Verif.Sys Require Import Glob.
From Verif.Sys Require Csv.
Import ListNotations.
Local Open Scope char_scope.
Local Open Scope list_scope.

(** marcel.op.all (op/__init__.py:70-74): the public operators, and three others *)
Definition all_operators : list text := Tab.public ++ map txt ["first"; "gather"; "runpipeline"]%string.
(** The operators whose module has no HELP: OpModule._help stays None (opmodule.py:33, 43-44) *)
Definition no_help : list text := map txt ["assign"; "first"; "gather"; "runpipeline"]%string.
(** The modules marcel/doc/help_NAME.py; each defines HELP *)
Definition doc_modules : list text := map txt
  ["builtin"; "color"; "command"; "configuration"; "file"; "function"; "history_record"; "interaction"; "marcel"; "namespace"; "object";
   "operator"; "overview"; "pipeline"; "process"; "prompt"; "startup"]%string.
(** marcel.doc.topics (doc/__init__.py:16-28) *)
Definition doc_topics : list text := map txt
  ["color"; "command"; "configuration"; "function"; "marcel"; "namespace"; "object"; "operator"; "overview"; "pipeline"; "prompt"]%string.

Definition member (t : text) (l : list text) : bool := existsb (text_eqb t) l.

(** str.lower, for these characters *)
Definition lower_char (c : ascii) : ascii :=
  let n := nat_of_ascii c in if (65 <=? n)%nat && (n <=? 90)%nat then ascii_of_nat (n + 32) else c.
Definition lower (t : text) : text := map lower_char t.

(** Help.setup and run, help.py:59-66, 79-93.  [Sends None]: None is sent, which is printed as None *)
Inductive page := OperatorPage (n : text) | TopicPage (n : text).
Inductive helped := Sends (p : option page) | Told.
Definition help (argument : option text) : helped :=
  let topic := lower (match argument with Some t => t | None => txt "marcel" end) in    (* help.py:45: the default *)
  if member topic all_operators
  then Sends (if member topic no_help then None else Some (OperatorPage topic))
  else if member topic doc_modules then Sends (Some (TopicPage topic))
  else Told.

(** HelpTopicHandler, tabcompleter.py:235-253: what the tab key appends to the word [w].  resolve_escapes (220-233) and
    util.unescape (Glob.unesc) do the same. *)
Definition help_topics : list text := sorted (doc_topics ++ Tab.public).
Definition topic_offers (w : text) : list text :=
  map (skipn (length w)) (filter (starts (unesc w)) help_topics).

(** UsernameHandler, 266-285.  usernames: fields[0] of each line, which keeps its line end *)
Fixpoint upto_colon (l : text) : text := match l with [] => [] | c :: r => if c =? ":" then [] else c :: upto_colon r end.
Definition usernames (passwd : text) : list text := map upto_colon (Csv.readlines passwd).
Definition user_offers (passwd : text) (w : text) : list text :=
  let prefix := unesc (skipn 1 w) in
  map (fun u => skipn (length prefix) u ++ ["/"]) (filter (starts prefix) (sorted (usernames passwd))).

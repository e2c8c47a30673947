CLAIMS = []
def claim(p, status, theorems, note=''):
    CLAIMS.append({'property': p, 'status': status, 'theorems': theorems.split(), 'note': note})

claim('C01', 'proved', 'c01_pipeline_is_composition c01_run_is_stream_then_end c01_grouping c01_stored_pipeline')
claim('C02', 'proved', 'c02_map c02_select c02_squish c02_cast c02_others_unaffected')
claim('C03', 'proved', 'c03_errors_forwarded_at_once c03_errors_survive_pipelines c03_errors_keep_their_place')
claim('C04', 'partial', 'c04_end_told_once_partial c04_tail_refuted c04_window_refuted c04_union_refuted c04_stored_pipeline_refuted',
      'True only of the operators in tells_once; tail, window -o on empty input, union, args and stored pipelines violate it (refuted).')
claim('C05', 'proved', 'c05_head_takes_prefix c05_head_skips_prefix c05_head_zero_rejected c05_head_splits')
claim('C06', 'proved', 'c06_tail_takes_suffix c06_tail_drops_suffix c06_tail_zero_rejected c06_tail_splits')
claim('C07', 'proved', 'c07_reverse c07_sort c07_sort_all_or_nothing c07_sort_bad_key',
      'Sortedness and stability for keys of one comparable shape; all-or-nothing for any keys. list.sort is modelled as a stable insertion sort.')
claim('C08', 'proved', 'c08_unique c08_unique_complete c08_unique_consecutive c08_unique_unhashable')
claim('C09', 'partial', 'c09_disjoint c09_predicate c09_overlap_partial c09_overlap_refuted',
      'Overlapping windows: proved when there are at least n tuples; with fewer the code emits spurious all-None windows (refuted).')
claim('C10', 'proved', 'c10_red c10_red_incremental')
claim('C11', 'proved', 'c11_red_groups c11_red_groups_incremental')
claim('C12', 'partial', 'c12_failing_tuples_skipped_partial c12_partial_update_refuted',
      'Holds for one reduction function; with several the totals of the functions left of the failing one include the failing tuple (refuted).')
claim('C13', 'proved', 'c13_expand c13_expand_component')
claim('C14', 'proved', 'c14_difference c14_difference_counts c14_difference_runs_p_once')
claim('C15', 'proved', 'c15_intersect c15_intersect_counts')
claim('C16', 'proved', 'c16_union')
claim('C17', 'proved', 'c17_join')
claim('C18', 'proved', 'c18_filter c18_filter_splits')
claim('C19', 'proved', 'c19_at_most_one_branch c19_some_branch c19_case')
claim('C20', 'proved', 'c20_args c20_args_all')
claim('C21', 'proved', 'c21_gen c21_gen_padded c21_gen_pad_refused c21_gen_zero_never_stops')
claim('C22', 'partial', 'c22_rerun_partial c22_difference_rerun_partial c22_reverse_refuted c22_difference_refuted c22_intersect_refuted c22_filter_refuted c22_join_refuted c22_case_refuted',
      'Holds for pipelines of the operators in restartable; reverse, difference, intersect, join, filter and case keep state between runs (refuted).')
claim('C43', 'proved', 'c43_cast')
claim('C44', 'proved', 'c44_write_passes_through')
claim('C23', 'partial', 'c23_call_keeps_partial c23_call_keeps_top_partial c23_shadowed_global_refuted c23_deleted_parameter_refuted',
      'Holds when no parameter has the name of a global variable and no parameter is deleted; otherwise refuted: a global shadowed by a parameter is gone after the call, and deleting a parameter makes the call fail.')
claim('C24', 'partial', 'c24_scopes_partial c24_defined',
      'Refinement to a stack of environments for every command that keeps parameter and global names apart; the excluded cases are the C23 refutations.')
claim('C25', 'partial', 'c25_immutable_partial c25_refused c25_others_settable c25_startup_names c25_host_refuted c25_parameter_refuted',
      'Assignments, imports and deletions never change a protected variable; binding it as a pipeline parameter removes it (refuted), and HOST and ITALIC are not protected (refuted).')
claim('C26', 'partial', 'c26_job_partial c26_failed_job c26_deletion_refuted c26_import_refuted c26_stale_variable_refuted',
      'Holds for completed commands without deletions or imports; deletions and imports are not transmitted (refuted).')
claim('C46', 'partial', 'c46_reopen_partial c46_deleted_refuted',
      'Holds for histories without deletions; a deleted variable comes back on reopening (refuted).')
claim('C27', 'partial', 'c27_tiles_partial c27_terminates c27_no_crash_partial c27_joined_whole_partial c27_refuted_lost c27_refuted_crash c27_unbalanced_accepted c27_expression_whole',
      'Tiling and termination hold for every line and mode schedule. Adjacent pieces read as one formatted string can lose text (refuted; proved whole without backslashes and single quotes), and some lines raise unexpected exceptions instead of an error report (refuted; proved none without backslashes and #).')
claim('C28', 'proved', 'c28_backslashes c28_single_quotes c28_double_quotes c28_plain c28_every_text c28_only_quotes_removed c28_missing_quote c28_lone_quote c28_inner_quotes_kept c28_escaped_quote_kept')
claim('C29', 'partial', 'c29_operator_arguments c29_all_operators c29_attributes_once c29_pipeline_arguments_partial c29_pipeline_call c29_pipeline_arguments_refuted c29_unknown_parameter_refuted c29_job_flags_refuted',
      'Operators: parsing is proved equivalent to the specification, for every declaration. Pipeline arguments: equivalence proved, but a parameter named without a value is silently dropped, and an unknown parameter name is not reported as a usage error (refuted).')
claim('C30', 'proved', 'c30_commands c30_lines c30_nothing_lost c30_heredoc_refuted',
      'For script files. A script on standard input (heredoc) is cut at its first blank line before it is split (c30_heredoc_refuted).')
claim('C42', 'partial', 'c42_arguments_partial c42_twice_refuted c42_positional_refuted c42_int_refuted',
      'Exact characterization proved; a repeated flag or undeclared positional arguments are silently dropped and a bad integer raises ValueError (refuted).')
claim('C45', 'partial', 'c45_functions_partial c45_no_parameters c45_expression c45_body_irrelevant c45_space_refuted c45_space_always c45_star_refuted c45_default_refuted c45_keywords_refuted',
      'Proved for texts that do not start with white space and parameters x and *x. Refuted otherwise: after "( " parameters are not recognised, an assigned function with only a starred parameter is called instead of assigned, default values and ** are not recognised.')
claim('C31', 'partial', 'c31_pwd_is_cwd c31_effect_partial c31_consistent_partial c31_pushd_popd c31_missing_refuted c31_deleted_refuted c31_file_crash c31_start_same c31_start_home c31_start_loses_refuted c31_start_dies_refuted',
      'Proved while the current directory stays accessible and pushd gets an existing path; pushd of a missing path (broken link) and deletion of the current directory leave a stack whose top is not PWD (refuted). A session begins where the workspace was left, or at home; then the stack loses a directory that still exists, and a directory that cannot be entered ends marcel (refuted).')
claim('C32', 'partial', 'c32_exclusive_partial c32_refused_partial c32_available_partial c32_one_writer c32_pipeline c32_two_readers_refuted c32_refusal_locks_refuted c32_content_lost_refuted c32_jobs_refuted c32_jobs_one_file',
      'Exclusion proved for every history in one process without overlapping readers (and never two writers, in all). Refuted with two readers, across jobs, and after a pipeline whose setup failed (file stays open, content lost).')
claim('C33', 'partial', 'c33_store c33_history_partial c33_append_refuted',
      'Proved with the memo of pickle modelled, when no string or tuple object occurs twice in what is appended; otherwise appended rows come back with values of earlier rows (refuted).')
claim('C34', 'partial', 'c34_exclusive_partial c34_lock_unlock c34_startup_race_refuted c34_child_refuted c34_abandoned_refuted',
      'Exclusion proved for every number of processes, interleaving and deaths, provided a starting process that finds no marker creates it before anybody else acts, and no user of the workspace is the parent of another. Both conditions are necessary (refuted without).')
claim('C35', 'partial', 'c35_one_foreground_partial c35_prompt_partial c35_transitions_partial c35_dead_is_final_partial c35_background_survives_partial c35_no_crash_partial c35_labels_partial c35_exit_kills_partial c35_ctrl_c_partial c35_ctrl_z_partial c35_startup_refuted c35_race_refuted',
      'At most one foreground job and an empty foreground at the prompt: proved for every schedule of signals and process ends. Transitions, ctrl-C/ctrl-Z effects, truth of labels: proved when signals are handled while the shell is blocked (prompt or waiting). Both need that no startup script starts jobs (refuted otherwise); a ctrl-C in the middle of bg can resurrect a dead job and crash the shell (refuted).')
claim('C36', 'partial', 'c36_prefix c36_ended_worker c36_all_ended c36_complete_partial c36_one_worker c36_equal_partial c36_no_hang_partial c36_lost_refuted c36_slow_refuted c36_always_lost c36_hang_refuted',
      'For every schedule the output of fork from each worker is a prefix of what the worker wrote. All is delivered with one worker, or when no end is noticed twice, or with equally long outputs and no waiting. Otherwise refuted: a worker that ended is counted again at each round, so output is lost, and fork can hang.')
claim('C37', 'partial', 'c37_content_exists c37_fields c37_rows_partial c37_every_content c37_skip_partial c37_headings_partial c37_text c37_text_labelled c37_text_files c37_files c37_blank_refuted c37_stale_headings_refuted c37_multiline_refuted',
      'Proved for every file without empty lines, any line ends and any fields; text files in full. An empty line silently ends the file (refuted), unusable headings leave those of the previous file in force (refuted), quoted line ends split a row (refuted).')
claim('C38', 'partial', 'c38_terminates c38_once c38_only c38_recursive c38_linked c38_roots c38_level_1 c38_defaults c38_flags c38_twice_refuted c38_special_refuted',
      'By path: termination for every link structure, no path twice, all and only the existing files below the roots. By identity refuted: a file may be listed under two paths via links. Devices, sockets and pipes are never listed (refuted).')
claim('C39', 'partial', 'c39_file c39_history c39_stable c39_entered c39_recall c39_last c39_no_command c39_edit_partial c39_edit_refuted c39_edit_doubles',
      'Numbers are stable for every history, file and interleaving with other processes; ! N and !! execute exactly the designated command. edit N is exact for one-line results; in a command of several lines it doubles the line ends (refuted).')

claim('C40','proved','c40_round_trip c40_last_duplicate c40_objects_format_as_dicts c40_navigation_by_item c40_navigation_by_attribute_partial c40_navigation_by_attribute_refuted c40_attribute_names',
 'At the level of JSON syntax trees: the json library is modelled by its interface (object_hook bottom-up, default on unknown types). Navigation by attribute fails exactly for the keys __class__, __dict__ and __weakref__.')
claim('C41','partial','c41_recognised c41_version_recorded c41_migrates_partial c41_current_unchanged c41_fresh c41_histories_deleted c41_current_history_deleted_refuted c41_full_second_refuted c41_interrupted_refuted c41_named_workspace_refuted c41_version_refuted',
 'Proved for every state that is laid out as some version left it: startup succeeds and keeps everything but histories. Refuted: histories in the current format are deleted while the default workspace is unused; a first command at a full second or an interrupted first start makes every later start fail; a workspace named workspace is lost; versions are compared as strings.')
claim('C47','partial','c47_accepted c47_always_answers c47_sound_partial c47_documented_partial c47_unambiguous_partial c47_redirections c47_token_kinds c47_refuted_commas c47_refuted_shell',
 'The accepted language is characterised exactly (c47_accepted), for every text and every set of executables. It is the documented grammar when no operator takes the arguments of a shell, except that commas between parameters may be left out (refuted), and that the first argument of an executable is also read as if it were not one: echo =x is an assignment, echo a#b an error (refuted). What create_op then does with the arguments is in C29, C45.')
claim('C48','partial','c48_text c48_pipeline_partial c48_refuted c48_function c48_function_text',
 'Proved for every text of a pipeline that ends with neither a backslash nor an opening parenthesis, nested pipelines and redirections included, and for every function (Python tokens; that the text is read back whole is c48_function_text). Refuted when the pipeline ends with an escaped blank: strip() drops the blank and the text kept cannot be compiled. The executables and variables that decide how arguments are read are assumed unchanged.')
claim('C49','partial','c49_csv_partial c49_append_partial c49_quoting c49_text_partial c49_text_failures c49_text_errors c49_empty_tuple_refuted c49_csv_errors_refuted',
 'Proved for every stream of non-empty tuples whose components have no line end in them (read splits such a component: it reads by line). Refuted: an empty tuple writes a blank line, where read --csv stops; with --csv an Error arriving at write is lost, or kills the command, depending on how it was sent.')

claim('C50','partial','c50_offered c50_word_partial c50_designates_partial c50_quoted_partial c50_separator_refuted c50_quote_refuted c50_tilde_refuted c50_bracket_refuted c50_backslash_refuted',
 'What is offered is exact. The completed word is one argument standing for the name, and designates that file and nothing else, for names without the separators = , # and odd blanks, without wildcards, backslash, leading ~ (and, in a quoted word, without that quote); each of these exceptions is refuted in general. A directory below one typed with an escape gets a blank instead of a slash (ex_escaped_dir). Not modelled: completion of flags, operators, user names and help topics.')
claim('C51','partial','c51_designates c51_once c51_all_and_only c51_refused c51_dots c51_written c51_itself_partial c51_backslash_refuted c51_bracket_refuted c51_current_dir_refuted c51_broken_link_refuted c51_double_slash_refuted c51_root_twice_refuted c51_link_parent_refuted c51_home_parent_refuted c51_parent_twice_refuted',
 'What is designated is characterised exactly for every file system of finite depth (c51_all_and_only, c51_refused). That a path or a File designates itself holds for names without wildcards and backslashes (c51_itself_partial); refuted: names with a backslash or [c], a current directory with [c] in its name, links that lead nowhere, //, / given twice, x/.. through a link, ~/.., ../n together with the path.')
claim('C52','partial','c52_as_typed_partial c52_words_unique c52_interactive_refuted c52_escaped_blank_refuted c52_missing_quote_refuted c52_other_space_refuted',
 'Proved for every sequence of words (plain, escaped, single and double quoted parts) except those affected by defects that are refuted: a word -i (or -ii, --interactive) makes marcel refuse the command (grep -i x); a word ending with an escaped blank is stripped and swallows the next word; a word starting with a quote and ending otherwise is refused; white space other than space and tab divides words. Not proved: function arguments, names written with quotes.')
claim('C53','partial','c53_in_order c53_everything_partial c53_end_last c53_ends c53_lines_unique c53_race_refuted c53_background_refuted c53_delay_refuted c53_no_input_refuted',
 'Order, wholeness, no repetition and the end coming last are proved for every execution; the end comes within a bounded number of marcel steps once the command has ended, its pipes are closed and the input has ended. That nothing is lost is proved when the command leaves nothing behind that holds its pipes and does not end between an empty select and the following poll; both exceptions are refuted (output lost), and so is promptness (a buffered line waits for the next write), and a command without input (AttributeError). Decoding, line end translation and failing downstream operators are not modelled.')
claim('C54','partial','c54_gather c54_or_partial c54_first_partial c54_iterate_partial c54_reuse_refuted c54_first_errors_refuted c54_first_never_raises c54_first_goes_on_refuted c54_iterate_refuted c54_errors_list_refuted',
 'gather is exact for every operator or pipeline and every source, also when the run is cut short. a | b is right for programs that do not use a pipeline again after extending it; otherwise refuted: | changes its left operand. first returns the first value, ignores Errors before it and runs the whole pipeline (StopAfterFirst is never raised); iteration fails when the first operator fails; the errors argument is ignored. Operator objects shared by two pipelines in use at the same time are not modelled.')
claim('C55','partial','c55_quote c55_one_reading c55_upload_partial c55_download_partial c55_scp_one_reading c55_scp_partial c55_refuted_directory c55_refuted_download_directory c55_refuted_port c55_refuted_ipv6',
 'Proved for all file names, for target directories, users, keys and addresses written with ordinary characters. Refuted: the target directory (and the key) is not quoted; download ignores the port; an IPv6 address is cut at its first colon. What scp then does on the remote host (old versions run another shell there) is not modelled.')
claim('C56','partial','c56_all_or_nothing c56_periodic c56_autocommit c56_finished c56_reported c56_arguments_partial c56_arguments_refuted c56_stored_refuted',
 'Everything about transactions is proved, for a command given directly. Refuted: a variable whose value is a pipeline with sql makes its changes and then always fails with an unhandled exception (flush on a closed connection); ARGs are ignored when there is input (c56_arguments_partial: right otherwise). Other users of the database are not modelled.')
claim('C57','partial','c57_create c57_open c57_close c57_close_then_open c57_in_use c57_delete c57_own_files_only c57_start c57_start_interrupted c57_list c57_interrupted_close_refuted c57_interrupted_close_list_refuted c57_damaged_default_refuted c57_delete_default_refuted c57_slash_in_name_refuted',
 'c57_close says what an interrupted close can leave: everything but the variables or the properties. Refuted: those can be left empty, the next start finds nothing wrong, and the workspace cannot be opened (or the workspaces cannot be listed); if the default workspace is damaged, all workspaces are put aside (c57_start requires it whole); ws --delete __DEFAULT__ deletes the files of the default workspace; a name with a slash gives a workspace that is put aside at the next start.')
claim('C58','partial','c58_at_most_once c58_each_once c58_session c58_well_behaved c58_why_it_ends c58_script c58_script_prefix_partial c58_after_edit_refuted c58_startup_error_refuted c58_failure_refuted c58_switch_at_startup_refuted c58_recall_refuted c58_script_again_refuted c58_script_startup_refuted',
 'c58_each_once needs that no startup script is modified during the session: otherwise the line typed next is lost (refuted). Not every failure is contained (refuted: EOFError, other exceptions, a workspace in use). c58_script_prefix_partial needs that no startup script fails (refuted otherwise: the script is run again and again).')
claim('C59','partial','c59_displayed_partial c59_content_partial c59_example c59_stray_brace_refuted c59_backslash_refuted c59_errors_refuted c59_no_columns_refuted',
 'Partial: documents must not end in paragraph markup, nor have an escaped backslash directly before it, nor color nothing at all, nor an escaped newline (refuted without these). Stray closing braces make the formatter loop (refuted).')
claim('C60','partial','c60_script c60_job_partial c60_prompt_partial c60_script_all c60_everywhere_partial c60_stored c60_false c60_remote_case c60_example',
 'The property is false of the code (c60_false). Proved: exactly which commands it holds of, as a table of arguments and places; a script without fork, remote and sudo is among them, and the functions that map, select, sort, red, squish and window apply. Partial: for commands at the prompt, no case inside a remote (c60_remote_case).')
claim('C61','partial','c61_repeated_end_partial c61_union_refuted c61_window_refuted c61_example',
 'Proved for all modelled operators but two, for which it is false of the code (c61_union_refuted, c61_window_refuted). Operators that run other programs (bash, sql, sudo, remote) are not among them.')
claim('C62','partial','c62_from_host_partial c62_host_partial c62_cut c62_every_schedule_partial c62_labels c62_heard_out_partial c62_one_host_partial c62_printed c62_sudo_partial c62_sudo_cut c62_sudo_once c62_error_refuted c62_changed_refuted c62_printed_refuted c62_lost_refuted c62_example',
 'The property is false of the code in five ways (the theorems _refuted, c62_printed and c62_sudo_once). Proved: what does hold, for every output and schedule: tuples arrive in order, labelled, as they were when first output; a prefix in general, all of them from a host whose end was noticed.')
claim('C63','partial','c63_accepted c63_host c63_used_partial c63_rejected_partial c63_rejected_refuted c63_labels c63_labels_refuted c63_label_is_host c63_ssh_partial c63_sudo_partial c63_command_refuted c63_example',
 'Valid configurations are accepted and mean what they say (c63_accepted, c63_host). The rest is false of the code (the theorems _refuted); partial: commands whose parts have ordinary characters only.')
claim('C64','partial','c64_call_partial c64_example c64_dash_refuted c64_flags_refuted c64_values_refuted',
 'c64_call_partial: all 42 functions, for values that do not look like flags (where this matters), parameters that are None or true where the functions only test that, and arguments of the kinds that the functions insist on. Otherwise false of the code (the theorems _refuted). ps, whose attributes do not go through the parser, is in C65. Not modelled: the conversions (all are quantified over).')
claim('C65','partial','c65_reported_partial c65_unknown c65_again_partial c65_api_refuted c65_api_all_refuted c65_hidden_refuted c65_pid_refuted c65_example',
 'Proved for the command line, if the owners of the processes can be read. False for the API, for unreadable owners and for the process numbers 0 and empty (the theorems _refuted).')
claim('C66','partial','c66_shell_partial c66_process_partial c66_workers_partial c66_example c66_builtin_refuted c66_data_refuted c66_parameters_refuted c66_pipeline_parameter_refuted c66_named_worker_refuted c66_deleted_refuted c66_order_refuted c66_captured_refuted c66_dirs_refuted',
 'Proved for histories of assignments and imports whose values can be made again elsewhere (portable: built-in functions with a module, data that can be pickled, functions whose variables were assigned before and not since), and for workers in the default workspace. Otherwise false of the code (the theorems _refuted). Python is a parameter (evaluation, imports, what can be pickled); pipelines and functions are read back from their text as they were (C48).')
claim('C67','partial','c67_mode_partial c67_mode_refuted c67_line_partial c67_aligned_partial c67_sorted_aligned_partial c67_aligned_refuted c67_color_partial c67_color_refuted c67_path c67_name_partial c67_name_refuted c67_snapshot c67_ls_snapshot c67_wanted_partial c67_wanted_refuted c67_example',
 'Types: proved for regular files, directories and links. Alignment: for names of at most 6 letters and sizes below a million, or if all files are found first and no group has a longer name than the users. Colors: for absolute links and links in the current directory. Kinds: if the file does not change while ls looks at it. Otherwise false of the code (the theorems _refuted). Not modelled: strftime, non-ASCII lower(), the rights needed to look at a file.')
claim('C68','partial','c68_output c68_none_lost c68_no_deadlock c68_example c68_every_tick_refuted c68_again_refuted',
 'Proved for one run of a timer, for a clock that does not go back. Not for a second run of the same timer (c68_again_refuted). Ticks are skipped if the pipeline is slow (c68_every_tick_refuted). Not modelled: negative intervals.')
claim('C69','partial','c69_env_partial c69_none_refuted c69_empty_refuted c69_example',
 'Proved for names that are not empty and variables that are not None; otherwise false of the code (the theorems _refuted).')
claim('C70','partial','c70_import_partial c70_invalid c70_immutable c70_dotted_refuted c70_submodule_refuted c70_all_refuted c70_halfway_refuted c70_empty_refuted c70_example',
 'Proved for modules without dots (with --as: all), symbols defined in the module itself (or nowhere), modules without __all__, and names that may be changed. Otherwise false of the code (the theorems _refuted). Not modelled: effects of loading a module, errors in it, __getattr__ of modules.')
claim('C71','partial','c71_namespace_partial c71_never_mutable c71_commands_partial c71_commands_refuted c71_prompt_refuted c71_no_import_refuted c71_color_refuted c71_function_refuted c71_saved_refuted c71_bad_command c71_example',
 'Proved for scripts that begin with from marcel.builtin import *, once, and call marcel functions only; the commands for the first session of a process. Otherwise false of the code (the theorems _refuted); the prompt is false in general. Not modelled: control structures, attributes (COLOR_SCHEME), effects of other calls; errors in scripts are in C58.')
claim('C72','partial','c72_display_partial c72_function_color_refuted c72_survives_partial c72_other_refuted c72_prompt_dir_fixed_refuted c72_directory_partial c72_workspace_directory c72_unambiguous c72_unambiguous_workspace c72_directory_refuted c72_first_failure c72_not_a_list c72_objects c72_homeless_workspace c72_example',
 'Proved for functions that evaluate to strings; for PROMPT without components of other types; for directories whose name does not merely begin with that of the home directory. The rest is false of the code (the theorems _refuted). Texts contain no escape characters of their own.')
claim('C73','partial','c73_trace_shows_what_happened c73_lines_name_their_operator c73_setup_lines c73_tracing_changes_nothing_partial c73_untraceable_refuted c73_reverse_untraced c73_a_trace c73_own_commands_partial c73_own_commands_refuted c73_jobs_partial c73_relative_file_refuted c73_relative_case c73_off_is_off c73_status_partial c73_status_refuted c73_failed_file c73_history c73_operators_meant c73_argument_shown c73_descriptions c73_unprintable_receiver',
 'Proved for pipelines of operators whose __repr__ does not raise; for jobs when file names are absolute; for commands run by marcel itself while no job has been run since tracing was set. The rest is false of the code (the theorems _refuted). The lines written by operators inside pipeline arguments are not modelled.')
claim('C74','partial','c74_line_partial c74_numbers c74_negative_count_refused',
 'Proved for the operators listed, gen with a count other than 0, words without quotes or escapes, flags in one order. The Python compiler and the functions named by words are parameters. Pipelines with parameters, variables and executables as operators are not covered.')
claim('C75','partial','c75_red_partial c75_groups_partial c75_squish_partial c75_nothing c75_and_none_refuted c75_leading_none_refuted c75_concat_incremental_refuted c75_concat_incremental_differs',
 'Proved but for red and with a None before the last value (refuted: what came before the None is forgotten), and for concat with --incremental when the rows are looked at later (refuted: all rows hold the same list, the complete one). None in front is skipped instead of refused (refuted). Floats, sets and objects with operators of their own are not modelled.')
claim('C76','partial','c76_operators_partial c76_flags_partial c76_arguments_partial c76_empty_refuted c76_other_flags_refuted c76_help_refuted',
 'Missing: quoted words, redirections, assignments, parameters of pipelines and @host (the model covers them, the theorems do not; for redirections and after an expression it does not hold, see the examples). An empty line, and a flag of an executable or a variable, are an exception (refuted); after a word that starts with help, help topics are offered (refuted). The names of files are C50.')
claim('C77','partial','c77_session_partial c77_variables_kept_partial c77_delete_broken c77_busy_refuted c77_extra_name_refuted c77_not_implemented_refuted c77_api_refuted',
 'Refinement of a specification that knows only names, variables and homes. Missing: opening a workspace that another process uses, which ends the session (refuted); the check of all workspaces on every restart (C57), processes that start or end meanwhile (C02), startup scripts that fail, names with a slash (refuted in C57). A name that a command has no use for is ignored (refuted), --rename, --copy, --export and --import always fail (refuted), and the Python function ws, which marcel.api does not export, does not pass on name=, exp= and imp= (refuted). ws NAME shows the workspace without its home.')
claim('C78','partial','c78_position_partial c78_total c78_output_partial c78_rerun_refuted c78_args_refuted c78_sort_refuted c78_sort_after_select_refuted c78_generator_refuted c78_first_refuted',
 'Position: the first run of a pipeline without args, sort or generators; total: any session, args included, with all that the operator ever received; output: a pipeline of map, select, squish, window and red puts out what numbered streams say. False of the code, and refuted: a pipeline run again through the API, and the pipeline of args, go on counting; keys of sort all see the same position, possibly that of another operator; the elements of a generator see the counter of the next operator; in the first operator pos() is left over from earlier commands or fails. Not modelled: join, difference and the like, which run pipelines on their own; functions that run pipelines.')
claim('C79','partial','c79_values c79_missing c79_accepted c79_all_or_nothing c79_refused_partial c79_number_refuted c79_negative_refuted c79_heredoc_refuted c79_fixed_refuted c79_usage_refuted',
 'Values, missing flags and all-or-nothing hold in full; accepted: the accepted command lines are exactly those made of uses; refused: only without int flags. False of the code, and refuted: a value of an int flag that is not a number does not end the script, which goes on without its variables; negative numbers are refused; with marcel x y <<EOF the first word is lost; a variable that cannot be assigned leaves those before it set; a variable cannot be called usage. Simplified: int() is any partial function from strings to integers; names are identifiers.')
claim('C80','partial','c80_once c80_settled c80_no_deadlock c80_delivered c80_released c80_session_partial c80_next_command_refuted c80_exit_refuted c80_order_refuted c80_unloadable_refuted c80_unsettable_refuted c80_ctrl_c_refuted c80_blocked_refuted',
 'Safety, absence of deadlock and liveness hold in full for a listener that keeps making steps; session_partial has the hypothesis that the user waits until all has settled, and that the listener is alive. False of the code without it, and refuted: the next command may not see the variables of the command before it; exit may lose them; of two jobs the one that is done first may win; changes that cannot be loaded or assigned, or a job killed by ctrl-C while it sends, end the listener, and the changes of all later jobs are lost; a job paused while it sends holds up all others. Simplified: a message is either partly or completely in the pipe; the wakeup of the condition variable may come at any time.')
claim('C81','partial','c81_args c81_args_all c81_case_partial c81_case_refuted c81_shared_refuted c81_after_failure_refuted c81_locals_refuted',
 'args in full for functions that make a new pipeline each time, have no local variables, and whose operators can be set up; case for branches of one operator. False of the code without this, and refuted: branches of two or more operators deliver nothing at all; a function that returns an existing pipeline ends in a RecursionError for the second group; after a pipeline that could not be set up, later runs use it again; a function with a local variable fails. Simplified: operators are given by what they send when run, for a tuple (given those before it) and at the end.')
claim('C82','partial','c82_equal c82_hash c82_unique c82_consecutive c82_difference c82_join c82_order c82_sort c82_process_number_refuted c82_mixed_refuted c82_history_refuted c82_reused_pid_refuted',
 'In full for streams in which no column mixes files, processes or history records with anything else, and (for unique, difference, join) in which there are no history records or lists. False of the code without this, and refuted: a file compared with anything else raises AttributeError, so unique -c and sort fail; a process and an equal number in one column make unique fail; history records cannot be used in unique, difference and join at all; two processes that had the same number at different times are merged. Simplified: entries of a set with the same hash are compared in the order of their insertion; list.sort by insertion.')
claim('C83','partial','c83_streams_partial c83_files_partial c83_store_load c83_frame c83_alias_refuted c83_deleted_refuted c83_failed_job_refuted c83_parameter_refuted',
 'store followed by load, and the frame property with sharing made explicit, hold in all states; that every variable has a stream of its own holds when streams are not assigned to other variables, no job fails whose variable was not a stream before, and parameters that are stored to have been passed a stream. False of the code otherwise, and refuted. Simplified: commands one after the other, each done before the next (C80 for the variables of jobs; C32 for overlapping use); contents as lists of tuples (C33 for the files).')
claim('C84','partial','c84_complete c84_client c84_prefix c84_progress c84_bounded c84_not_understood c84_killed_partial c84_all_killed_partial c84_orphans c84_late c84_endless c84_gone_refuted c84_late_refuted c84_orphan_refuted c84_not_told_refuted c84_interrupt_refuted c84_spared',
 'completeness, progress and the bound hold of all executions. That no process is left holds of those found, if none of them ends by itself between the look and its turn, ignores the signal or belongs to somebody else; otherwise it is false of the code, and refuted, as it is of orphans and of processes started late. A request that is not understood is told on standard error only. Simplified: a signal that is not ignored takes effect at once; process identifiers are not reused; the trace file is not modelled.')
claim('C85','partial','c85_color c85_cube c85_cube_refuted c85_screen_partial c85_same_letters_partial c85_file_partial c85_file_refuted c85_visible_refuted c85_printable_refuted c85_assign c85_assigned c85_assign_colors_partial c85_assign_refuted c85_extension c85_extension_refuted c85_dots_refuted c85_stderr_partial c85_stderr_refuted c85_example',
 'proved if the scheme was given colors only, no text contains an escape character, and the user and status of processes are known; for files, except history records and color schemes. Otherwise false of the code, and refuted: see the theorems _refuted. Simplified: keys of dicts are strings; no locale with digit grouping. Files are in C67, help in C59, the prompt in C72.')
claim('C86','partial','c86_determined c86_script_partial c86_missing c86_script_refuted c86_prompts c86_pipe_partial c86_pipe_blank_refuted c86_pipe_space_refuted c86_redirected_partial c86_redirected_lines c86_redirected_refuted c86_example',
 'scripts: proved unless standard input is a pipe. Pipes: for texts without blank lines and without whitespace at the ends of lines. Redirected files: without continued lines. Otherwise false of the code, and refuted. Not modelled: commands that restart or end the shell (C58), unreadable files, other line ends.')
claim('C87','partial','c87_editor c87_startup c87_other_refuted c87_argument_partial c87_argument_refuted c87_last c87_no_editor_refuted c87_no_command_refuted c87_prefix_refuted',
 'the choice of the editor, edit -s, and edit without arguments hold. edit -s NAME never works; paths with white space, missing editors, missing commands and names that start with edit are refuted. Edited commands: those of one line (C39).')
claim('C88','partial','c88_help c88_offers c88_offers_once c88_offered_partial c88_assign_refuted c88_operators c88_unlisted_refuted c88_mentioned_refuted c88_quoted_refuted c88_escaped_refuted c88_users c88_users_quoted_refuted c88_users_line_refuted',
 'help and completion of unquoted words without escapes hold, but for the page of assign, and six topics that are never offered. Quoted and escaped words, and lines without a colon in the file of users, are refuted. The layout of the pages is C59; when the tab key completes topics or users at all is C76.')
claim('C89','partial','c89_determined c89_run c89_no_command c89_ends_partial c89_previous_refuted c89_itself_refuted c89_script_refuted',
 'run N, unknown numbers, and chains that go back in the history hold. run without a number is refuted (nothing is run), and so is run N of its own number (never ends) and run in a script.')
claim('C90','partial','c90_jobs c90_number c90_shown c90_flags_refuted c90_expression_refuted c90_number_moves',
 'The listing and job numbers hold. The flags -j and -p can never be used (refuted), and a number written as an expression is an exception that ends marcel (refuted). A number shown means another job once one before it has finished (c90_number_moves; documented).')
claim('C91','partial','c91_texts c91_clusters c91_numbers_refuted c91_functions c91_functions_refuted c91_fork_refuted c91_exactly c91_declared c91_flags_refuted',
 'It holds for texts, files and clusters (c91_texts, c91_clusters), and exactly for them (c91_exactly; by operator, c91_declared). It fails for numbers, functions and flags: a quoted number or function is refused, a quoted flag is not a flag, and fork counts the characters of a quoted number (refuted).')
claim('C92','partial','c92_starts c92_refused c92_outputs c92_setup_errors c92_run_errors_refuted c92_dies c92_nested_refuted c92_nested_errors',
 'Ids, refusals and outputs hold, up to what C36 says about the way to the parent. An exception of the setup of an instance is received as a value. One of its run is lost: SendToParent has closed the connection before it could be sent (refuted). fork inside fork never outputs anything: workers are daemons, and these must not start processes (refuted).')

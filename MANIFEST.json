{
 "claims": [
  {
   "property": "C01",
   "status": "proved",
   "theorems": [
    "C01_urisplit_roundtrip_http",
    "C01_urisplit_roundtrip",
    "C01_refuted"
   ],
   "note": "split_ok states the delimiter conditions. C01_refuted shows components outside them (internal marker in the authority, parenthesised path, missing authority)."
  },
  {
   "property": "C02",
   "status": "proved",
   "theorems": [
    "C02_authority_roundtrip"
   ],
   "note": ""
  },
  {
   "property": "C03",
   "status": "partial",
   "theorems": [
    "C03_query_roundtrip_partial",
    "C03_refuted"
   ],
   "note": "Proved for every non-empty dictionary. False of the code for the empty one and for keys that need quoting (C03_refuted); C153 says exactly which come back."
  },
  {
   "property": "C04",
   "status": "proved",
   "theorems": [
    "C04_str_reparses",
    "C04_str_reparses_file",
    "C04_refuted"
   ],
   "note": "Remote/memory/zip grammar and, separately, file URIs (whose str() is the path). C04_refuted: values needing quoting, and queries on file URIs."
  },
  {
   "property": "C05",
   "status": "proved",
   "theorems": [
    "C05_join_appends",
    "C05_refuted"
   ],
   "note": "C05_refuted: a name beginning with '.' joined to the root is not ordinary: the path property becomes relative."
  },
  {
   "property": "C06",
   "status": "partial",
   "theorems": [
    "C06_split_undoes_join_partial",
    "C06_refuted"
   ],
   "note": "Proved without query, and for the root only without authority. False of the code otherwise (C06_refuted); C158 says for all URIs what split() gives and exactly when it undoes the join."
  },
  {
   "property": "C07",
   "status": "proved",
   "theorems": [
    "C07_join_assoc",
    "C07_join_trailing"
   ],
   "note": ""
  },
  {
   "property": "C08",
   "status": "partial",
   "theorems": [
    "C08_dirname_levels_partial",
    "C08_refuted"
   ],
   "note": "Proved for every level when there is no authority, and below the top level otherwise. False of the code at and above the top level of a host (C08_refuted); C154 says for all levels what is there."
  },
  {
   "property": "C09",
   "status": "partial",
   "theorems": [
    "C09_derived_same_backend_partial",
    "C09_refuted"
   ],
   "note": "Proved when credentials are in the URI. False of the code for keyword credentials (C09_refuted)."
  },
  {
   "property": "C10",
   "status": "proved",
   "theorems": [
    "C10_plain_is_file",
    "C10_plain_is_file'"
   ],
   "note": "'Path' means a text that the scheme pattern does not match; any text without '://' qualifies."
  },
  {
   "property": "C11",
   "status": "partial",
   "theorems": [
    "C11_absolute_partial",
    "C11_relative_partial",
    "C11_dot_slash_partial",
    "C11_refuted"
   ],
   "note": "Proved for absolute paths outside '/.', for relative ones not beginning with a dot and for './'. False of the code for '../x', '.hidden/x', '/.hidden', 'a:b', backslashes, trailing '#' (C11_refuted). C152_path and C152_relative say exactly which paths are kept."
  },
  {
   "property": "C12",
   "status": "proved",
   "theorems": [
    "C12_windows_roundtrip"
   ],
   "note": ""
  },
  {
   "property": "C13",
   "status": "partial",
   "theorems": [
    "C13_query_wf",
    "C13_equality_partial",
    "C13_refuted"
   ],
   "note": "Equivalence and the characterisation of equality are proved. 'Equal URIs address the same resource' is false of the code (C13_refuted)."
  },
  {
   "property": "C14",
   "status": "partial",
   "theorems": [
    "C14_add_suffix_partial",
    "C14_refuted"
   ],
   "note": "Proved without query. With a query the suffix lands in the query text (C14_refuted). C152_suffix says exactly which suffixes can be added."
  },
  {
   "property": "C15",
   "status": "partial",
   "theorems": [
    "C15_refuted_slash",
    "C15_absolute_reference_partial",
    "C15_refuted",
    "C15_refuted_fragment"
   ],
   "note": "Absolute references are proved to come back unchanged. Every reference without '//' raises (C15_refuted, for all of them), so relative resolution is false of the code; query and fragment may be swapped (C15_refuted_fragment); a slash may be doubled (C15_refuted_slash). What urljoin does for every pair of texts is C109."
  },
  {
   "property": "C16",
   "status": "partial",
   "theorems": [
    "C16_absolute_unipath_partial",
    "C16_refuted"
   ],
   "note": "unipath is proved for all URIs, is_absolute for all but local URIs with the Windows separator, where it is false (C16_refuted)."
  },
  {
   "property": "C17",
   "status": "proved",
   "theorems": [
    "C17_same_key",
    "C17_no_cleanup",
    "C17_other_key"
   ],
   "note": "Keys are compared as the code does, extras as sets; C17_no_cleanup is the special case without clean-ups."
  },
  {
   "property": "C18",
   "status": "proved",
   "theorems": [
    "C18_cleanup",
    "C18_entries",
    "C18_shutdown"
   ],
   "note": "For every set of connections that raise in close(); C18_entries says the same entry by entry, C18_shutdown for forced clean-ups."
  },
  {
   "property": "C19",
   "status": "proved",
   "theorems": [
    "C19_closed_once",
    "C19_never_handed_out",
    "C19_closed_for_good",
    "C19_forgotten"
   ],
   "note": "C19_forgotten: a connection unused for longer than the timeout is dropped, and with it the data of a memory filesystem."
  },
  {
   "property": "C20",
   "status": "proved",
   "theorems": [
    "C20_unknown",
    "C20_registered",
    "C20_total",
    "C20_query_typeerror"
   ],
   "note": "For a registered scheme every exception is the one the backend raises. C20_query_typeerror: query parameters named like parameters of the lookup make it fail earlier."
  },
  {
   "property": "C21",
   "status": "partial",
   "theorems": [
    "C21_no_failure_partial",
    "C21_all_return_partial",
    "C21_no_deadlock_partial",
    "C21_agree_partial",
    "C21_no_mixup_partial",
    "C21_keyerror_partial",
    "C21_one_at_a_time_partial",
    "C21_alone_partial",
    "C21_refuted",
    "C21_cleanup_refuted",
    "C21_closed_refuted",
    "C21_two_cleanups_refuted"
   ],
   "note": "Proved without clean-up: nobody fails or waits for ever, and all agree when the key has a connection already. With clean-ups: no deadlock, no mix-up of keys, KeyError is the only failure. False of the code otherwise: two threads get different connections (C21_refuted), KeyError (C21_cleanup_refuted), closed connections (C21_closed_refuted), double closing (C21_two_cleanups_refuted)."
  },
  {
   "property": "C22",
   "status": "proved",
   "theorems": [
    "C22_tree_wf"
   ],
   "note": ""
  },
  {
   "property": "C23",
   "status": "partial",
   "theorems": [
    "C23_classify_partial",
    "C23_islink_partial",
    "C23_dangling_partial",
    "C23_cyclic_partial",
    "C23_refuted"
   ],
   "note": "Proved for every path that does not run through a file, a dead link or a link that is not absolute. False of the code for a link into a file, and islink() fails when an earlier link has the last name (C23_refuted)."
  },
  {
   "property": "C24",
   "status": "partial",
   "theorems": [
    "C24_no_raise_partial",
    "C24_islink_partial",
    "C24_refuted"
   ],
   "note": "Exactly the cases in which the tests return are proved, for all states. False of the code below files and dead links (AttributeError); islink() also raises on loops (C24_refuted)."
  },
  {
   "property": "C25",
   "status": "partial",
   "theorems": [
    "C25_written_read_partial",
    "C25_success_partial",
    "C25_refuted"
   ],
   "note": "Proved for every path but the root for which open succeeds. False of the code for the root (C25_refuted)."
  },
  {
   "property": "C26",
   "status": "proved",
   "theorems": [
    "C26_write_changes_one",
    "C26_write_fails"
   ],
   "note": "The mtime and mode of the written file itself are also given: open('w') resets the mode to 0."
  },
  {
   "property": "C27",
   "status": "proved",
   "theorems": [
    "C27_reading"
   ],
   "note": "Binary reading; text reading is C30."
  },
  {
   "property": "C28",
   "status": "partial",
   "theorems": [
    "C28_append_partial",
    "C28_refuted"
   ],
   "note": "Proved for non-empty files. False of the code for empty ones: a NUL byte is inserted (C28_refuted)."
  },
  {
   "property": "C29",
   "status": "proved",
   "theorems": [
    "C29_unreadable",
    "C29_boundary_refuted"
   ],
   "note": "C29_boundary_refuted: readline() is not protected."
  },
  {
   "property": "C30",
   "status": "proved",
   "theorems": [
    "C30_text_binary"
   ],
   "note": "'Unicode text' means text of scalar values; lone surrogates cannot be encoded."
  },
  {
   "property": "C31",
   "status": "proved",
   "theorems": [
    "C31_from",
    "C31_from_text",
    "C31_lines",
    "C31_lines_text"
   ],
   "note": "C31_from and C31_from_text: from any position (for text: any position where the rest of the file is valid UTF-8), by iteration, by readlines and by readline until it returns nothing; all three return the same lines. The number of iterations is bounded by a budget that only has to exceed the length."
  },
  {
   "property": "C32",
   "status": "proved",
   "theorems": [
    "C32_mkdir_free",
    "C32_mkdir_taken",
    "C32_mkdir_missing"
   ],
   "note": ""
  },
  {
   "property": "C33",
   "status": "proved",
   "theorems": [
    "C33_listdir",
    "C33_order"
   ],
   "note": "C33_order says what sorted means."
  },
  {
   "property": "C34",
   "status": "partial",
   "theorems": [
    "C34_remove_leaf_partial",
    "C34_remove_empty_partial",
    "C34_remove_full_partial",
    "C34_remove_missing_partial",
    "C34_refuted",
    "C34_query_refuted"
   ],
   "note": "Proved for files, links, empty and non-empty directories and missing entries named by ordinary paths. False of the code when a link on the way has the name of the last component (AttributeError) and for URIs with a query (KeyError) (C34_refuted, C34_query_refuted)."
  },
  {
   "property": "C35",
   "status": "partial",
   "theorems": [
    "C35_remove_tree_partial",
    "C35_remove_root_partial",
    "C35_refuted",
    "C35_midway_refuted"
   ],
   "note": "Proved (with termination, and for the root) for trees whose links, and the links these lead to, run only through directories or missing places: loops, links to the outside and back up included. False of the code for a link through a file, and when the removal itself breaks a link other links run through (C35_refuted, C35_midway_refuted)."
  },
  {
   "property": "C36",
   "status": "partial",
   "theorems": [
    "C36_symlink_partial",
    "C36_same_answers_partial",
    "C36_refuted"
   ],
   "note": "Proved for targets that need at most 31 nested links. A link to a target that needs 32 is broken though the target exists (C36_refuted)."
  },
  {
   "property": "C37",
   "status": "proved",
   "theorems": [
    "C37_decided",
    "C37_cycle",
    "C37_chain",
    "C37_found"
   ],
   "note": "Chains are of links whose own paths contain no other link."
  },
  {
   "property": "C38",
   "status": "partial",
   "theorems": [
    "C38_makedirs_partial",
    "C38_fails_partial",
    "C38_keeps",
    "C38_refuted",
    "C38_half"
   ],
   "note": "Proved for ordinary paths; C38_keeps (existing entries never change) for every URI, callback and outcome. False of the code with a trailing slash: isdir() of the same URI stays false (C38_refuted). With an empty name inside it raises after creating some directories (C38_half)."
  },
  {
   "property": "C39",
   "status": "partial",
   "theorems": [
    "C39_copy_file_partial",
    "C39_copy_link_partial",
    "C39_copy_missing",
    "C39_copy_directory",
    "C39_copy_unwritable",
    "C39_slash_refuted",
    "C39_refuted"
   ],
   "note": "Proved for ordinary paths, links followed or not; failing copies change nothing. False of the code for a destination directory written with a trailing slash (an entry with the empty name is made) and for sources through a link named like the last component (C39_slash_refuted, C39_refuted)."
  },
  {
   "property": "C40",
   "status": "partial",
   "theorems": [
    "C40_source_kept_partial",
    "C40_self",
    "C40_refuted",
    "C40_link_self"
   ],
   "note": "Proved for every destination that does not lead to the source file, however the copy ends. False of the code otherwise: the file is emptied, a link is deleted (C40_self and C40_link_self for all states, C40_refuted)."
  },
  {
   "property": "C41",
   "status": "partial",
   "theorems": [
    "C41_copy_tree_partial",
    "C41_copy_real_partial",
    "C41_refuted",
    "C41_dead_refuted"
   ],
   "note": "Proved with and without followlinks and ignore. Left out: links that make the tests raise, or (followlinks) lead nowhere; false of the code there (C41_refuted, C41_dead_refuted). Destinations below the source: C43; blanks in directory names: C42."
  },
  {
   "property": "C42",
   "status": "partial",
   "theorems": [
    "C42_root_refuted",
    "C42_slash_refuted",
    "C42_blank_refuted",
    "C41_copy_tree_partial",
    "C41_copy_real_partial"
   ],
   "note": "Where it works is C41. False of the code from the root, with a trailing slash and for directory names with blanks at the ends (C42_*_refuted)."
  },
  {
   "property": "C43",
   "status": "partial",
   "theorems": [
    "C43_terminates_partial",
    "C43_refuted"
   ],
   "note": "Proved for destinations outside the source. False of the code for a destination inside the source: C43_refuted for every state with an empty directory and every budget."
  },
  {
   "property": "C44",
   "status": "partial",
   "theorems": [
    "C44_move_file_partial",
    "C44_move_dir_partial",
    "C44_self",
    "C44_refuted"
   ],
   "note": "Proved for files and for directories without links. False of the code when the destination is the source: the file is deleted (C44_self for all states, C44_refuted)."
  },
  {
   "property": "C45",
   "status": "partial",
   "theorems": [
    "C45_file_partial",
    "C45_dir_partial",
    "C45_refuted"
   ],
   "note": "Proved for files with a destination that cannot be written and for directories with a missing destination. False of the code when the destination leads back into the source (C45_refuted)."
  },
  {
   "property": "C46",
   "status": "partial",
   "theorems": [
    "C46_walk_partial",
    "C46_walk_tree_partial",
    "C46_refuted",
    "C46_hidden_refuted"
   ],
   "note": "Proved for every directory whose links do not make the tests raise; also with followlinks. False of the code for a link through a file and for names starting with a dot in the root (C46_refuted, C46_hidden_refuted)."
  },
  {
   "property": "C47",
   "status": "partial",
   "theorems": [
    "C47_glob_partial",
    "C47_glob_fails",
    "C47_fnmatch",
    "C47_refuted"
   ],
   "note": "Proved for all patterns; the matching of Python's fnmatch is modelled and proved to be the documented one (C47_fnmatch). False of the code for names starting with a dot in the root (C47_refuted)."
  },
  {
   "property": "C48",
   "status": "partial",
   "theorems": [
    "C48_exec_bits_partial",
    "C48_refuted"
   ],
   "note": "Proved for masks made of execute bits. Other masks change other bits (C48_refuted)."
  },
  {
   "property": "C49",
   "status": "partial",
   "theorems": [
    "C49_info_partial",
    "C49_refuted"
   ],
   "note": "Proved for all entries; with followlinks=False paths with an earlier link named like the last component are left out, there the code raises (C49_refuted)."
  },
  {
   "property": "C50",
   "status": "proved",
   "theorems": [
    "C50_md5",
    "C50_md5_fails"
   ],
   "note": "For an arbitrary hash function; that hashlib hashes the concatenation of the blocks is trusted."
  },
  {
   "property": "C51",
   "status": "proved",
   "theorems": [
    "C51_failure_changes_nothing"
   ],
   "note": "All operations of MemOps.op, including those on handles."
  },
  {
   "property": "C52",
   "status": "partial",
   "theorems": [
    "C52_exclusion_partial",
    "C52_same_path_partial",
    "C52_loser_partial",
    "C52_winner_partial",
    "C52_refuted",
    "C52_unlock_refuted",
    "C52_alias_refuted",
    "C52_cleanup_refuted"
   ],
   "note": "Proved for any number of threads and any schedule, other operations interleaved, as long as nobody opens a memory connection or unlocks with _manipulate: exclusion, what losers get, and that the next one gets in. False of the code otherwise: C52_refuted (new connection), C52_unlock_refuted, C52_alias_refuted (same URI, file made through a link), C52_cleanup_refuted (the next holder's file is removed)."
  },
  {
   "property": "C53",
   "status": "partial",
   "theorems": [
    "C53_refused_partial",
    "C53_loses_partial",
    "C53_refuted"
   ],
   "note": "False of the code: the file is opened for writing, and so emptied, before the lock is tried. C53_refused_partial and C53_loses_partial show this happens in every state and that nothing else changes."
  },
  {
   "property": "C54",
   "status": "partial",
   "theorems": [
    "C54_callback_first",
    "C54_others_partial",
    "C54_refuted"
   ],
   "note": "The first half is proved for every URI method; the second for methods working on one path. False of the code for methods built from others (C54_refuted)."
  },
  {
   "property": "C55",
   "status": "partial",
   "theorems": [
    "C55_isfile_partial",
    "C55_isdir_partial",
    "C55_exists_partial",
    "C55_listdir",
    "C55_listed_exists",
    "C55_listdir_fails",
    "C55_refuted",
    "C55_root_refuted",
    "C55_slash_refuted"
   ],
   "note": "Proved for every archive and every reachable state of a connection that has been used to open something, for ordinary members. False of the code on a fresh connection (AttributeError, C55_refuted), for the root and for a trailing slash (C55_root_refuted, C55_slash_refuted)."
  },
  {
   "property": "C56",
   "status": "partial",
   "theorems": [
    "C56_write_read_partial",
    "C56_sequence_partial",
    "C56_refuted",
    "C56_two_writers_refuted",
    "C56_append_refuted"
   ],
   "note": "Proved for every state and every sequence of writes and reads, for names without NUL and surrogates. False of the code for a NUL in the name (C56_refuted), two open writers (C56_two_writers_refuted) and append (UnboundLocalError, C56_append_refuted)."
  },
  {
   "property": "C57",
   "status": "partial",
   "theorems": [
    "C57_refuted",
    "C57_unreachable_refuted",
    "C57_levels_refuted"
   ],
   "note": "False of the code: archives written by other tools name members without a leading slash, and those are not found. C57_refuted and C57_unreachable_refuted for all such archives; C57_levels_refuted."
  },
  {
   "property": "C58",
   "status": "partial",
   "theorems": [
    "C58_walk_partial",
    "C58_all_members_partial",
    "C58_refuted"
   ],
   "note": "Proved for archives of any size whose members have absolute ordinary names. False of the code for a directory in the root whose name starts with a dot (C58_refuted)."
  },
  {
   "property": "C59",
   "status": "partial",
   "theorems": [
    "C59_trailing_slash_partial",
    "C59_refuted",
    "C59_names_partial",
    "C59_directory_refuted",
    "C59_file_refuted"
   ],
   "note": "Proved for listdir and for the backend calls removefile and removedir (C59_names_partial: all paths, all states). False of the code for the other operations: C59_directory_refuted (every directory: p + / does not exist, cannot be removed, and mkdir and open make an entry with an empty name), C59_file_refuted (every file: the tests raise)."
  },
  {
   "property": "C60",
   "status": "partial",
   "theorems": [
    "C60_usable_names_partial",
    "C60_distinct_names_partial",
    "C60_refuted"
   ],
   "note": "Proved for every usable_name. The excluded names really fail: C60_refuted, and C152_name for all of them."
  },
  {
   "property": "C61",
   "status": "partial",
   "theorems": [
    "C61_working_directory_partial",
    "C61_working_directory_missing",
    "C61_refuted",
    "C61_early_refuted",
    "C61_temp_partial",
    "C61_temp_lost_partial",
    "C61_temp_refuted",
    "C61_twice_refuted",
    "C61_lookup_class_partial",
    "C61_nesting",
    "C61_inside",
    "C61_reentrant_refuted",
    "C61_threads_refuted"
   ],
   "note": "Proved for every body that leaves the directory to return to in place, for temporary files also if the name cannot be found any more (C61_temp_lost_partial), for absolute names of temporary files and for every nesting of exception classes. False of the code otherwise: C61_refuted (directory removed), C61_early_refuted (object made early), C61_temp_refuted (relative name), C61_twice_refuted (temporary file closed in the block), C61_reentrant_refuted and C61_threads_refuted."
  },
  {
   "property": "C62",
   "status": "partial",
   "theorems": [
    "C62_programs_partial",
    "C62_call_partial",
    "C62_root_refuted",
    "C62_append_refuted",
    "C62_attribute_refuted",
    "C62_dots_refuted"
   ],
   "note": "Proved for programs of any length whose calls satisfy Program.fits (ordinary names; not creating, writing or removing the root; appending to non-empty files only), as long as the memory backend does not raise AttributeError, against the operating system model of Posix.v. False of the code outside: C62_root_refuted, C62_append_refuted, C62_dots_refuted, and C62_attribute_refuted for the AttributeErrors."
  },
  {
   "property": "C63",
   "status": "partial",
   "theorems": [
    "C63_to_partial",
    "C63_into_partial",
    "C63_itself",
    "C63_failure",
    "C63_missing_partial",
    "C63_taken_partial",
    "C63_inside_partial",
    "C63_far_partial",
    "C63_nested_refuted"
   ],
   "note": "Proved for sources and destinations that are no links: to a free name, over a file, into a directory, onto itself, to a place with missing parents; C63_failure for all URIs. False of the code when the directory already contains one of that name: the moved directory goes one level deeper (C63_nested_refuted, for all states). A directory moved to a place whose parents are missing gets them created, a file does not (C63_far_partial)."
  },
  {
   "property": "C64",
   "status": "proved",
   "theorems": [
    "C64_write_plain",
    "C64_append_plain",
    "C64_denied",
    "C64_write",
    "C64_append"
   ],
   "note": "For every URI, through links too: C64_write, C64_append. C64_write_plain and C64_append_plain are the same for ordinary paths that are no links, with explicit entries."
  },
  {
   "property": "C65",
   "status": "proved",
   "theorems": [
    "C65_made",
    "C65_taken",
    "C65_through",
    "C65_loop",
    "C65_remove",
    "C65_same",
    "C65_end",
    "C65_end_free",
    "C65_link",
    "C65_link_made",
    "C65_nowhere",
    "C65_remove_any"
   ],
   "note": "For all links, relative or absolute, anywhere on the way: C65_same, C65_end, C65_end_free, C65_link, C65_link_made, C65_nowhere, C65_remove_any. Writing through a path with a slash at its end is the exception in C65_same (refused, C106). C65_through is the same for absolute targets, with explicit entries; 40 links is the limit of the kernel (C65_loop)."
  },
  {
   "property": "C66",
   "status": "partial",
   "theorems": [
    "C66_exec_bits_partial",
    "C66_refuted"
   ],
   "note": "Proved for masks of execute bits. Other bits in the mask are set as well (C66_refuted)."
  },
  {
   "property": "C67",
   "status": "partial",
   "theorems": [
    "C67_copy_file_partial",
    "C67_copy_tree_partial",
    "C67_self_refuted"
   ],
   "note": "Proved for trees without links, files to existing files and free names, directories to places that do not exist and are not below the source, names without blanks at their ends (tree copies strip blanks, see C42); C87 has links. False of the code for a copy onto itself: the file is emptied (C67_self_refuted, for all states)."
  },
  {
   "property": "C68",
   "status": "partial",
   "theorems": [
    "C68_names_refuted",
    "C68_remove_partial",
    "C68_remove_full_partial",
    "C68_remove_missing_partial",
    "C68_makedirs_partial"
   ],
   "note": "Proved for trees without links whose names are ordinary ([plain_path]). False of the code for names with a question mark in them (C68_names_refuted); C85 has the recursive removal of trees with links, C65 the removal of a link."
  },
  {
   "property": "C69",
   "status": "partial",
   "theorems": [
    "C69_names_refuted",
    "C69_walk_partial",
    "C69_glob_partial"
   ],
   "note": "Proved for trees without links whose names are ordinary ([plain_path]). False of the code for names with a question mark in them: walk raises ValueError, or takes a directory for a file (C69_names_refuted). C86 has trees with links."
  },
  {
   "property": "C70",
   "status": "proved",
   "theorems": [
    "C70_always_sound",
    "C70_no_orphans"
   ],
   "note": "C70_always_sound; C70_no_orphans says it for a path. Against Posix.v; moves Posix.v leaves out (see DESIGN.md) do nothing there."
  },
  {
   "property": "C71",
   "status": "partial",
   "theorems": [
    "C71_move_file_partial",
    "C71_move_dir_partial",
    "C71_self_refuted",
    "C71_taken_refuted"
   ],
   "note": "Proved for files to free names, into directories and over files, for directories to free names and into directories, trees without links. False of the code for a file moved onto itself (deleted in memory) and into a directory with a file of that name (replaced in memory, refused locally): C71_self_refuted, C71_taken_refuted, both for all states; and see C63_nested_refuted."
  },
  {
   "property": "C72",
   "status": "partial",
   "theorems": [
    "C72_splitext",
    "C72_basename",
    "C72_last_partial",
    "C72_basename_partial",
    "C72_refuted"
   ],
   "note": "C72_splitext and C72_basename hold for every URI; C72_last_partial for the URIs of the grammar with at most one trailing slash and no query, C72_basename_partial with any query. False of the code otherwise: last() includes the query and is empty after two slashes (C72_refuted)."
  },
  {
   "property": "C73",
   "status": "partial",
   "theorems": [
    "C73_copy_equal",
    "C73_copy_backend_partial",
    "C73_copy_class",
    "C73_refuted"
   ],
   "note": "Equality, text and separator: C73_copy_equal, for every text. Class: C73_copy_class. Backend: C73_copy_backend_partial, unless credentials were given as keywords. False of the code for keyword credentials and after setting the scheme (C73_refuted)."
  },
  {
   "property": "C74",
   "status": "partial",
   "theorems": [
    "C74_backends_partial",
    "C74_parameters",
    "C74_refuted"
   ],
   "note": "Proved for URIs of the grammar whose credentials are in the authority. False of the code for credentials given as keywords or in the query (C74_refuted)."
  },
  {
   "property": "C75",
   "status": "proved",
   "theorems": [
    "C75_calls",
    "C75_determined"
   ],
   "note": "C75_calls covers every successful open (append to an empty file starts at position 1, see C28); C75_determined: the specification leaves no choice."
  },
  {
   "property": "C76",
   "status": "partial",
   "theorems": [
    "C76_two_files_partial",
    "C76_removed",
    "C76_shared_refuted",
    "C76_closed_refuted",
    "C76_mode_refuted"
   ],
   "note": "Proved for handles on different files (C76_two_files_partial, all interleavings) and for removed files (C76_removed). False of the code: handles on one file share one position (C76_shared_refuted, all states), closed handles work (C76_closed_refuted, all states), modes restrict read() only (C76_mode_refuted)."
  },
  {
   "property": "C77",
   "status": "partial",
   "theorems": [
    "C77_mtime",
    "C77_set",
    "C77_copystat",
    "C77_failure",
    "C77_write",
    "C77_refuted"
   ],
   "note": "All but the last clause is proved. False of the code: truncate and changes of a directory leave the times (C77_refuted)."
  },
  {
   "property": "C78",
   "status": "partial",
   "theorems": [
    "C78_positions",
    "C78_dump_partial",
    "C78_determined",
    "C78_twice_refuted",
    "C78_refuted"
   ],
   "note": "C78_positions holds for all positions of the files; C78_dump_partial needs them at the beginning. False of the code: what was written last is not shown (C78_refuted), a dump moves the positions so that a second one shows nothing (C78_twice_refuted, all states), binary files and no_binary raise (C78_refuted). The tables of mimetypes are a parameter."
  },
  {
   "property": "C79",
   "status": "partial",
   "theorems": [
    "C79_mem_to_local_partial",
    "C79_local_to_mem_partial",
    "C79_zip_to_mem_partial",
    "C79_zip_to_local_partial",
    "C79_users_refuted",
    "C79_users_source_refuted",
    "C79_links_refuted",
    "C79_links_lost_refuted",
    "C79_fresh_refuted"
   ],
   "note": "Proved for memory to local and back and for archives to both: ordinary names, no links, an archive that has been opened. False of the code: between the memory file systems of two users, which have the same scheme, the times are copied within the source's file system, which raises or changes a file there (C79_users_refuted, C79_users_source_refuted); with followlinks=False a link is made in the source's file system, where it may replace a file (C79_links_refuted, C79_links_lost_refuted); archives not opened yet (C79_fresh_refuted)."
  },
  {
   "property": "C80",
   "status": "partial",
   "theorems": [
    "C80_mem_to_local_partial",
    "C80_local_to_mem_partial",
    "C80_zip_to_mem_partial",
    "C80_zip_to_local_partial",
    "C80_root_refuted"
   ],
   "note": "Proved for the same pairs: ordinary names, no links, the destination does not exist yet. False of the code: the root of an archive (C80_root_refuted)."
  },
  {
   "property": "C81",
   "status": "partial",
   "theorems": [
    "C81_mem_to_local_file_partial",
    "C81_local_to_mem_file_partial",
    "C81_mem_to_local_partial",
    "C81_local_to_mem_partial",
    "C81_zip_refuted"
   ],
   "note": "Proved for memory to local and back, files and trees, under the conditions of C79 and C80. False of the code: out of an archive (C81_zip_refuted)."
  },
  {
   "property": "C82",
   "status": "partial",
   "theorems": [
    "C82_mem_to_zip_partial",
    "C82_local_to_zip_partial",
    "C82_fresh_refuted",
    "C82_tree_refuted"
   ],
   "note": "Proved for files from memory and local files into an archive that has been opened. False of the code: a connection not used yet (C82_fresh_refuted), directories (C82_tree_refuted)."
  },
  {
   "property": "C83",
   "status": "partial",
   "theorems": [
    "C83_parse_partial",
    "C83_parse_hash_partial",
    "C83_scheme_of",
    "C83_info_partial",
    "C83_info_refuted",
    "C83_unparse_refuted",
    "C83_mailto_refuted",
    "C83_builtin_partial",
    "C83_nohost_partial",
    "C83_extra",
    "C83_mailto_partial"
   ],
   "note": "parse: proved for URIs of the grammar whose authority is no connector, all tables of parsers and defaults; outside http and https a fragment stays in the path (C83_parse_hash_partial). The table of the code: C83_builtin_partial, C83_nohost_partial, C83_mailto_partial (two slashes); given parsers win (C83_extra). scheme_of for all URIs; info_of when there is one colon. False of the code: unparse never gives back what was parsed (C83_unparse_refuted, all URIs), mailto URIs cannot be parsed (C83_mailto_refuted, all addresses), info_of stops at the second colon (C83_info_refuted). C156 has the complete rules."
  },
  {
   "property": "C84",
   "status": "partial",
   "theorems": [
    "C84_block_partial",
    "C84_cleanup_partial",
    "C84_gone_refuted",
    "C84_nested"
   ],
   "note": "Proved for every URI that can be opened for writing and every body that leaves the set of held locks as it was (C84_block_partial, also what happens when the lock is held; C84_cleanup_partial; C84_nested). False of the code: with cleanup, a body that has removed the file makes the statement raise FileDoesNotExistError in place of the body's result or exception (C84_gone_refuted, all such bodies)."
  },
  {
   "property": "C85",
   "status": "partial",
   "theorems": [
    "C85_remove_tree_partial",
    "C85_names_refuted"
   ],
   "note": "Proved for all local trees whose names below the directory are ordinary ([plain_path]). False of the code for names with a question mark in them: ValueError, nothing is removed (C85_names_refuted)."
  },
  {
   "property": "C86",
   "status": "partial",
   "theorems": [
    "C86_names_refuted",
    "C86_walk_partial",
    "C86_real_partial",
    "C86_glob_partial"
   ],
   "note": "Proved for all local trees when the names met are ordinary ([plain_path]). The walk goes at most 41 times as many levels deep as there are entries, as the operating system gives up after 40 links. False of the code for names with a question mark in them (C86_names_refuted: a link to a directory is taken for a file)."
  },
  {
   "property": "C87",
   "status": "partial",
   "theorems": [
    "C87_copy_tree_partial",
    "C87_copy_link_partial",
    "C87_copy_through_partial",
    "C87_copy_follow_partial",
    "C87_dangling_refuted",
    "C87_relative_refuted",
    "C87_itself_refuted",
    "C87_lost_refuted"
   ],
   "note": "Proved for trees copied to a place that does not exist yet and is not below the source, links with absolute targets, ordinary names without blanks at their ends; single links to free names and over files; through links to free names; recursively through links when every entry met leads somewhere. False of the code: a link to nothing ends a recursive copy with followlinks=True half way (C87_dangling_refuted); relative links get another target (C87_relative_refuted), a link copied onto itself is removed (C87_itself_refuted, all states), copying a file onto a link to it or a link onto its file loses the content (C87_lost_refuted)."
  },
  {
   "property": "C88",
   "status": "proved",
   "theorems": [
    "C88_move_link",
    "C88_move_into",
    "C88_link"
   ],
   "note": "C88_link for every URI and destination; when it raises is in C107."
  },
  {
   "property": "C89",
   "status": "proved",
   "theorems": [
    "C89_no_program_tells"
   ],
   "note": "Proved for all programs and all pairs of reachable states with the same tree, time and callbacks."
  },
  {
   "property": "C90",
   "status": "proved",
   "theorems": [
    "C90_order_does_not_show"
   ],
   "note": "Proved for all programs and all sound local trees. Files are read and written as a whole."
  },
  {
   "property": "C91",
   "status": "proved",
   "theorems": [
    "C91_tests",
    "C91_islink",
    "C91_outcomes",
    "C91_others"
   ],
   "note": "Proved for all URIs and all reachable states; the callbacks are asked first (C91_others), so each rule is stated for a call that is not vetoed."
  },
  {
   "property": "C92",
   "status": "proved",
   "theorems": [
    "C92_info",
    "C92_mtime",
    "C92_isexec",
    "C92_readlink",
    "C92_listdir",
    "C92_reaches"
   ],
   "note": "Proved for all URIs with an absolute path and all reachable states (other URIs: C91_others)."
  },
  {
   "property": "C93",
   "status": "proved",
   "theorems": [
    "C93_mkdir",
    "C93_symlink",
    "C93_places"
   ],
   "note": "Proved for all URIs with an absolute path and all reachable states (other URIs: C91_others)."
  },
  {
   "property": "C94",
   "status": "proved",
   "theorems": [
    "C94_removefile",
    "C94_removedir",
    "C94_remove",
    "C94_cases"
   ],
   "note": "Proved for all URIs with an absolute path and all reachable states; recursive removal is in C43."
  },
  {
   "property": "C95",
   "status": "proved",
   "theorems": [
    "C95_open",
    "C95_cases"
   ],
   "note": "Proved for all URIs with an absolute path, all options, all reachable states and all sequences of calls on the handle."
  },
  {
   "property": "C96",
   "status": "proved",
   "theorems": [
    "C96_set_info",
    "C96_set_exec",
    "C96_manipulate",
    "C96_copystat"
   ],
   "note": "Proved for all URIs with an absolute path and all reachable states."
  },
  {
   "property": "C97",
   "status": "proved",
   "theorems": [
    "C97_copy",
    "C97_cases",
    "C97_plain"
   ],
   "note": "Proved for any two URIs and all reachable states with callbacks that raise nothing; SpecCopy.v has the rules."
  },
  {
   "property": "C98",
   "status": "proved",
   "theorems": [
    "C98_move",
    "C98_cases"
   ],
   "note": "Proved for any URI that does not lead to a directory and any destination, in all reachable states with callbacks that raise nothing."
  },
  {
   "property": "C99",
   "status": "proved",
   "theorems": [
    "C99_md5",
    "C99_glob",
    "C99_makedirs"
   ],
   "note": "Proved in all reachable states with callbacks that raise nothing; makedirs of other paths is in C38."
  },
  {
   "property": "C100",
   "status": "proved",
   "theorems": [
    "C100_urisplit",
    "C100_parse",
    "C100_one",
    "C100_number"
   ],
   "note": "Proved for all texts. int() of more than 4300 digits and of digits outside ASCII is not modelled."
  },
  {
   "property": "C101",
   "status": "proved",
   "theorems": [
    "C101_uri",
    "C101_class",
    "C101_one"
   ],
   "note": "Proved for all texts, separators and dictionaries of text-valued keyword arguments."
  },
  {
   "property": "C102",
   "status": "proved",
   "theorems": [
    "C102_split",
    "C102_basename",
    "C102_directory",
    "C102_level",
    "C102_splitext",
    "C102_splitext_fails",
    "C102_last"
   ],
   "note": "Proved for all URIs."
  },
  {
   "property": "C103",
   "status": "proved",
   "theorems": [
    "C103_join",
    "C103_div",
    "C103_add"
   ],
   "note": "Proved for all URIs and arguments; urlencode (of urllib) is used in the rule."
  },
  {
   "property": "C104",
   "status": "proved",
   "theorems": [
    "C104_path",
    "C104_str",
    "C104_unipath",
    "C104_absolute",
    "C104_extras",
    "C104_set_scheme"
   ],
   "note": "Proved for all URIs; equality is in C13."
  },
  {
   "property": "C105",
   "status": "proved",
   "theorems": [
    "C105_place",
    "C105_exists",
    "C105_isfile",
    "C105_isdir",
    "C105_islink",
    "C105_read",
    "C105_listdir",
    "C105_readlink",
    "C105_info",
    "C105_mtime",
    "C105_isexec",
    "C105_absent"
   ],
   "note": ""
  },
  {
   "property": "C106",
   "status": "proved",
   "theorems": [
    "C106_aims",
    "C106_slash",
    "C106_remove",
    "C106_mkdir",
    "C106_symlink",
    "C106_write",
    "C106_append",
    "C106_set_exec"
   ],
   "note": "remove() with recursive=True: C65_remove_any for links, C85 for directories."
  },
  {
   "property": "C107",
   "status": "proved",
   "theorems": [
    "C107_move",
    "C107_one",
    "C107_carried",
    "C107_over_link",
    "C107_raises"
   ],
   "note": "Sources that are no directories; directories are C63. Texts of links are not empty, as the kernel guarantees."
  },
  {
   "property": "C108",
   "status": "proved",
   "theorems": [
    "C108_copy",
    "C108_one",
    "C108_both",
    "C108_failure",
    "C108_self",
    "C108_link_self",
    "C108_perms"
   ],
   "note": "Copies without recursive; recursive copies are C67 and C87. A link made anew has the text that reading it as a URI gives (C105, C106), so a relative one may lead elsewhere."
  },
  {
   "property": "C109",
   "status": "proved",
   "theorems": [
    "C109_urljoin",
    "C109_one",
    "C109_tidied",
    "C109_fails",
    "C109_kept"
   ],
   "note": "posixpath.normpath is modelled from the library. What RFC 3986 asks for instead is in C15."
  },
  {
   "property": "C110",
   "status": "proved",
   "theorems": [
    "C110_reachable",
    "C110_call",
    "C110_first"
   ],
   "note": "Processes with memory connections only, one thread; calls whose URIs belong to two connections are C157. CTick, the passing of time, is not a call of the API."
  },
  {
   "property": "C111",
   "status": "proved",
   "theorems": [
    "C111_apart",
    "C111_first"
   ],
   "note": "The clock is moved by the program itself only. Locks are not among the calls: FILE_LOCKS is shared by all memory connections (Locks.v)."
  },
  {
   "property": "C112",
   "status": "partial",
   "theorems": [
    "C112_refuted",
    "C112_dropped",
    "C112_kept_partial",
    "C112_handles",
    "C112_used_partial"
   ],
   "note": "False of the code: the registry drops a connection that was not used for clean_timeout (half an hour by default), and the next use of the same URI finds an empty file system (C112_refuted); reading and writing open files does not count as use (C112_handles). C112_dropped says what a clean-up takes away, C112_kept_partial that the rest stays. C112_used_partial: a program that calls a method of some URI of its file system at least once per clean_timeout before each clean-up gets all the answers it would get without clean-ups and other connections."
  },
  {
   "property": "C113",
   "status": "proved",
   "theorems": [
    "C113_host"
   ],
   "note": ""
  },
  {
   "property": "C114",
   "status": "partial",
   "theorems": [
    "C114_refuted",
    "C114_path_partial",
    "C114_all_partial"
   ],
   "note": "False of the code for makedirs, which asks for the parent of the top directory: 'memory://joe@' has an empty path, so AssertionError (C114_refuted). C114_all_partial covers every method but symlink() and setting callbacks (which keep a URI), recursive ones included: the same effect, and answers equal up to the authority in their URIs, on file systems without callbacks or question marks in names; copy and move of the root are left out, and makedirs, move and recursive copy need two non-empty authorities. C114_path_partial: methods that use the path of their URI only, whatever else the URIs consist of."
  },
  {
   "property": "C115",
   "status": "proved",
   "theorems": [
    "C115_names",
    "C115_names_derived",
    "C115_share",
    "C115_reserved",
    "C115_unknown"
   ],
   "note": "URIs whose query and keyword arguments have no name twice, which all URIs have that URI(...), joining, adding and splitting make (C115_names, C115_names_derived)."
  },
  {
   "property": "C116",
   "status": "proved",
   "theorems": [
    "C116_idle",
    "C116_lives",
    "C116_rate",
    "C116_closes"
   ],
   "note": "Operations of the registry are one step each; with interruptions see C21, where two clean-ups at once can kill the thread."
  },
  {
   "property": "C117",
   "status": "partial",
   "theorems": [
    "C117_stop_partial",
    "C117_refuted"
   ],
   "note": "Proved if the delays are less than clean_interval. False of the code for clean_interval 0 (C117_refuted): the thread cleans up forever without looking at the flag, and shutdown() never returns."
  },
  {
   "property": "C118",
   "status": "proved",
   "theorems": [
    "C118_rules",
    "C118_determined"
   ],
   "note": "Every sequence of uses follows the rules (SpecZipUse.v), and the rules leave no choice. Member names that cannot be encoded are outside."
  },
  {
   "property": "C119",
   "status": "partial",
   "theorems": [
    "C119_read",
    "C119_opened_partial",
    "C119_refuted"
   ],
   "note": "False of the code: exists, isfile, isdir and listdir answer from the members seen when the connection last opened the file (C119_refuted). Reading is about the archive as it is now, and so are the tests and listings after it until others change the file again."
  },
  {
   "property": "C120",
   "status": "proved",
   "theorems": [
    "C120_read",
    "C120_text",
    "C120_key"
   ],
   "note": "Exact table (SpecAttr.v) for every URI made from a text; AttributeError for all other names. fuel is the number of open calls, 3 are enough."
  },
  {
   "property": "C121",
   "status": "partial",
   "theorems": [
    "C121_assigned",
    "C121_readonly",
    "C121_scheme",
    "C121_refuted"
   ],
   "note": "False of the code: the text and comparisons know only the text parsed (and scheme and query set through their setters), while the connection is looked for with what was assigned (C121_refuted). Proved: what is assigned is read back and changes no other attribute (names whose value the properties use are excepted); the scheme changes the text and the connection; the other properties cannot be assigned."
  },
  {
   "property": "C122",
   "status": "partial",
   "theorems": [
    "C122_refuted"
   ],
   "note": "False of the code for every URI and every recursion limit (C122_refuted): the copy has no parse_result when it is asked for __setstate__. URI(u) does copy, see C73."
  },
  {
   "property": "C123",
   "status": "partial",
   "theorems": [
    "C123_import_partial",
    "C123_succeeds",
    "C123_skipped",
    "C123_refuted"
   ],
   "note": "Proved where every entry point that can be loaded has scheme and uri (C123_import_partial); the import succeeds in just these cases (C123_succeeds). False of the code otherwise (C123_refuted): a plugin without uri ends the import with an AttributeError after one half of it was registered."
  },
  {
   "property": "C124",
   "status": "proved",
   "theorems": [
    "C124_class",
    "C124_builtin",
    "C124_package",
    "C124_connection"
   ],
   "note": "C124_package: the entry points of the package itself, in any order. orderly says that the import succeeds (C123_succeeds). The URI class of a plugin is one of the four of the package."
  },
  {
   "property": "C125",
   "status": "proved",
   "theorems": [
    "C125_thinned",
    "C125_memory",
    "C125_local",
    "C125_zip"
   ],
   "note": "For every backend whose tests and listings change nothing; C125_memory, C125_local and C125_zip say which these are."
  },
  {
   "property": "C126",
   "status": "partial",
   "theorems": [
    "C126_block_partial",
    "C126_alone",
    "C126_refuted"
   ],
   "note": "False of the code: the table of locks is one for all memory file systems (C126_refuted). C126_block_partial: whatever connections are open, a lock of a writable file is granted in any of the file systems if no lock of that path is held in any of them, and refused otherwise; either way the file is there and empty and no other file system changes. C126_alone, for every URI, with cleanup or without: the statement does in the file system of its URI what it does in a lone one in which the locks held anywhere are held."
  },
  {
   "property": "C127",
   "status": "proved",
   "theorems": [
    "C127_relative",
    "C127_block",
    "C127_nowhere",
    "C127_not_entered",
    "C127_program",
    "C127_lost"
   ],
   "note": "C127_nowhere: the directory of the process was gone before. On trees with links; the calls are those that take paths as they are (recursive operations and walks, whose answers contain URIs, are left out). C127_lost has the case excluded in C127_block. C127_not_entered: a URI that leads to no directory."
  },
  {
   "property": "C128",
   "status": "proved",
   "theorems": [
    "C128_lives",
    "C128_kept",
    "C128_others"
   ],
   "note": "C128_others shows that the proviso is needed: with another clean-up at the same time the thread can die. C128_kept starts at a moment when nobody is in the middle of a call with that key and the cleaner thread is between two clean-ups."
  },
  {
   "property": "C129",
   "status": "partial",
   "theorems": [
    "C129_open_partial",
    "C129_refuted"
   ],
   "note": "False of the code: between reading last_used and closing, a method can look up the connection and start working with it (C129_refuted). C129_open_partial: if the connection was used often enough since the last moment nobody was busy with it, every method works on an open connection."
  },
  {
   "property": "C130",
   "status": "proved",
   "theorems": [
    "C130_release",
    "C130_none",
    "C130_either"
   ],
   "note": "C130_either: one of C130_release and C130_none applies to every list. A name git does not mark may be a branch: the witness has an archive of a branch called 2.x whose version is 2.x."
  },
  {
   "property": "C131",
   "status": "proved",
   "theorems": [
    "C131_checkout",
    "C131_styles",
    "C131_unknown",
    "C131_package",
    "C131_exact",
    "C131_describe"
   ],
   "note": "C131_checkout for all styles, C131_package and C131_exact for the style of the package, C131_describe: with the style git-describe-long the text of git describe comes out again. git's answers are those of one unchanging repository; digits are ASCII. C131_styles: every style renders every tree, except that pep440-pre raises ValueError when the one .post of the tag is followed by something that is no number; C131_unknown: so does a style that is none of the eight (or default or empty)."
  },
  {
   "property": "C132",
   "status": "partial",
   "theorems": [
    "C132_same_partial",
    "C132_refuted"
   ],
   "note": "False of the code: the tag 1.2.post3+g0123456 looks like the third commit after 1.2 (C132_refuted). C132_same_partial: for tags without a plus sign and without .post."
  },
  {
   "property": "C133",
   "status": "proved",
   "theorems": [
    "C133_found",
    "C133_unknown"
   ],
   "note": "C133_found and C133_unknown. The path of the package is what os.path.realpath gives: absolute, with plain names."
  },
  {
   "property": "C134",
   "status": "partial",
   "theorems": [
    "C134_import_partial",
    "C134_refuted"
   ],
   "note": "False of the code: get_versions() decodes what git prints as UTF-8, so in a checkout with a branch name in another encoding the import ends in UnicodeDecodeError (C134_refuted). C134_import_partial: if everything git prints is UTF-8 and the date and the number of commits can be asked for."
  },
  {
   "property": "C135",
   "status": "proved",
   "theorems": [
    "C135_file"
   ],
   "note": ""
  },
  {
   "property": "C136",
   "status": "partial",
   "theorems": [
    "C136_refuted",
    "C136_other_refuted",
    "C136_plain_partial"
   ],
   "note": "False of the code: the prefix in get_config() is abl.vpath without the hyphen, so the version is -VERSION (C136_refuted, for all versions), and inside the checkout of another project it is the version of that project (C136_other_refuted). C136_plain_partial: for directories named without the hyphen."
  },
  {
   "property": "C137",
   "status": "proved",
   "theorems": [
    "C137_missing",
    "C137_bare"
   ],
   "note": "C137_bare has the exception for every URI method; a class without _initialize has no connections at all."
  },
  {
   "property": "C138",
   "status": "proved",
   "theorems": [
    "C138_needs",
    "C138_all_needed"
   ],
   "note": "C138_needs; C138_all_needed: for every URI method and every method of its list there are two classes that differ only in that method and two different results. The class leaves copy, makedirs, move, walk and glob as they are."
  },
  {
   "property": "C139",
   "status": "proved",
   "theorems": [
    "C139_provided"
   ],
   "note": ""
  },
  {
   "property": "C140",
   "status": "proved",
   "theorems": [
    "C140_copy",
    "C140_walk",
    "C140_links"
   ],
   "note": "C140_links also says that the hook is called first (its exception is that of the call) and supports_symlinks once, whatever effects they have."
  },
  {
   "property": "C141",
   "status": "proved",
   "theorems": [
    "C141_invariant"
   ],
   "note": ""
  },
  {
   "property": "C142",
   "status": "partial",
   "theorems": [
    "C142_used_partial",
    "C142_new_refuted"
   ],
   "note": "False of the code: the attribute connection of a new URI object is None, so that internal_copy is not used unless the destination object has been used before (C142_new_refuted, for all classes), and it is not told followlinks. C142_used_partial: for a destination object used before; for every followlinks the same call."
  },
  {
   "property": "C143",
   "status": "partial",
   "theorems": [
    "C143_missing_partial",
    "C143_refuted",
    "C143_others"
   ],
   "note": "False of the code: RevisionedFileSystem.switch is declared with one argument and called with two, so that switch raises TypeError, and so does log with keywords (C143_refuted, for all classes). C143_missing_partial has the others; C143_others: other URIs."
  },
  {
   "property": "C144",
   "status": "proved",
   "theorems": [
    "C144_unchanged",
    "C144_raises",
    "C144_remove",
    "C144_class"
   ],
   "note": "zip_class is the backend as a class; C144_class: it has the methods that Zip.v says the backend has. File objects are arbitrary."
  },
  {
   "property": "C145",
   "status": "proved",
   "theorems": [
    "C145_one",
    "C145_end",
    "C145_gone",
    "C145_not_opened",
    "C145_pieces",
    "C145_closed",
    "C145_once",
    "C145_same"
   ],
   "note": "C145_end: the outcome and the state after every body; C145_one: removing a name has one outcome; C145_same: so does reading."
  },
  {
   "property": "C146",
   "status": "partial",
   "theorems": [
    "C146_partial",
    "C146_backslash_refuted",
    "C146_question_refuted",
    "C146_hash_refuted"
   ],
   "note": "False of the code: a file named ..\\aaa\\f, ..?x=y or ..# in the directory makes the call delete files outside of it (C146_*_refuted). C146_partial: for every local tree with links and every outcome when no name below contains a slash, backslash, # or (( or is .. or begins with ..? , and the URI is written as an ordinary absolute or relative path (possibly with a slash at its end)."
  },
  {
   "property": "C147",
   "status": "proved",
   "theorems": [
    "C147_thins",
    "C147_gone"
   ],
   "note": "C147_thins: every outcome; C147_gone: when it returns. Every local URI, every sound tree."
  },
  {
   "property": "C148",
   "status": "partial",
   "theorems": [
    "C148_local_partial",
    "C148_zip_partial",
    "C148_mem_partial",
    "C148_zip_refuted",
    "C148_blank_refuted",
    "C148_mem_refuted"
   ],
   "note": "False of the code: a member /a/../../f of an archive, a memory directory named .. and a local directory whose name is two dots with a blank before or behind them (any of the blanks that strip() removes) make a recursive copy overwrite a file beside the destination (C148_*_refuted). C148_local_partial, C148_zip_partial and C148_mem_partial: for every outcome, both flags and every ignore list when the names in the source are firm (no slash, backslash, ?, # or ((, not empty or dots, no blank at the ends), the source has no links (an archive has none), and the destination is written as an ordinary path below some directory (links are allowed above that directory, and there are none from it to the destination). Not covered: other names, sources with links, destinations with other spellings."
  },
  {
   "property": "C149",
   "status": "proved",
   "theorems": [
    "C149_calls",
    "C149_answers",
    "C149_questions",
    "C149_copies"
   ],
   "note": "C149_calls: every run that returns; C149_answers: the converse, for runs shorter than the budget; C149_questions and C149_copies are consequences. Runs that raise are not in the claim (C139 has what they may raise)."
  },
  {
   "property": "C150",
   "status": "proved",
   "theorems": [
    "C150_mem_local",
    "C150_zip_mem",
    "C150_zip_file",
    "C150_mem_mem",
    "C150_local"
   ],
   "note": "Four pairs of file systems (C150_mem_local, C150_zip_mem, C150_zip_file, C150_mem_mem), and C150_local for a file copied within the local files. Positions of files that are open meanwhile may differ if the destination cannot be opened (C150_position)."
  },
  {
   "property": "C151",
   "status": "proved",
   "theorems": [
    "C151_seen",
    "C151_exactly"
   ],
   "note": "C151_seen, and with C89 the equivalence C151_exactly. With callbacks that raise an entry may be out of reach; nothing is claimed about those."
  },
  {
   "property": "C152",
   "status": "proved",
   "theorems": [
    "C152_path",
    "C152_relative",
    "C152_name",
    "C152_below",
    "C152_local_root",
    "C152_local_below",
    "C152_suffix"
   ],
   "note": "All equivalences: C152_path and C152_relative for URI(p), C152_name, C152_below, C152_local_root and C152_local_below for names, C152_suffix for suffixes."
  },
  {
   "property": "C153",
   "status": "proved",
   "theorems": [
    "C153_exactly",
    "C153_keys",
    "C153_written",
    "C153_empty"
   ],
   "note": "C153_exactly is the equivalence (dictionaries compared without regard to order), C153_keys what the others become, C153_written and C153_empty the failures. urlencode and quoting are those of the standard library, modelled in Utf8.v."
  },
  {
   "property": "C154",
   "status": "proved",
   "theorems": [
    "C154_top",
    "C154_beyond",
    "C154_never_stays",
    "C154_relative"
   ],
   "note": "C154_top, C154_beyond (all levels above), C154_never_stays; C154_relative. Schemes are those of the grammar (http and https excepted)."
  },
  {
   "property": "C155",
   "status": "proved",
   "theorems": [
    "C155_value",
    "C155_one",
    "C155_written",
    "C155_text",
    "C155_back"
   ],
   "note": "C155_value, C155_one, C155_written, C155_text, C155_back. The rules of SpecUnquote.v use none of the functions of Utf8.v; C100 and C101 use them too (item in SpecParse.v)."
  },
  {
   "property": "C156",
   "status": "proved",
   "theorems": [
    "C156_parse",
    "C156_scheme",
    "C156_info",
    "C156_unparse",
    "C156_back",
    "C156_back_mail"
   ],
   "note": "Complete rules with a case for every text and tuple: C156_parse, C156_scheme, C156_info, C156_unparse; what unparse makes of what parse returns: C156_back, C156_back_mail. Defaults are texts or None (the code makes texts of others)."
  },
  {
   "property": "C157",
   "status": "proved",
   "theorems": [
    "C157_copy",
    "C157_move",
    "C157_users",
    "C157_file",
    "C157_alone"
   ],
   "note": "C157_copy and C157_move for URIs of two connections that are both open, in either order; with C157_users the theorems on mem_mem (C79, C150) apply. C157_file is exact for a file that is not reached through a link and a destination that is no directory; C157_alone for copystat, symlink and sync. Copying is one block (Pieces.v and C150 have the blocks). Connections are told apart by user, password, host and port; names without question marks (tidy)."
  },
  {
   "property": "C158",
   "status": "proved",
   "theorems": [
    "C158_split",
    "C158_exactly"
   ],
   "note": "C158_split says what the parts are, C158_exactly when split() undoes the join; for the URIs of the grammar (SpecUri.v), names without slashes and the characters of C152."
  },
  {
   "property": "C159",
   "status": "proved",
   "theorems": [
    "C159_own",
    "C159_rest",
    "C159_together",
    "C159_order",
    "C159_during",
    "C159_link_needed",
    "C159_query_needed"
   ],
   "note": "C159_own and C159_rest for one call, C159_together for any sequence of calls of two parties and C159_order for two calls in either order; a handle is closed before the other party goes on. C159_during lets the other party act between any two operations of copy, move, remove, makedirs, walk and glob (the operations of the file system, and the copying of the content of one file, are not interrupted). C159_link_needed and C159_query_needed show that the conditions on links and queries cannot be dropped. The attributes of the root belong to neither part."
  },
  {
   "property": "C160",
   "status": "proved",
   "theorems": [
    "C160_rest",
    "C160_own",
    "C160_program",
    "C160_together",
    "C160_order",
    "C160_link_needed",
    "C160_dots_needed",
    "C160_witness"
   ],
   "note": "C160_own and C160_rest for one call, C160_program for programs, C160_together for any sequence of calls of two parties, C160_order for two calls in either order. C160_link_needed and C160_dots_needed show that the conditions on links and paths cannot be dropped. Links with a relative path are left out; calls acting in the middle of another one are C161; what the model of shutil.move leaves open (DESIGN.md) is left open here as well."
  },
  {
   "property": "C161",
   "status": "proved",
   "theorems": [
    "C161_alone",
    "C161_others",
    "C161_acts",
    "C161_two",
    "C161_program",
    "C161_same_code",
    "C161_apart_needed",
    "C161_witness"
   ],
   "note": "C161_alone: answer and effects at and below the directory are those of the call alone, whatever others do elsewhere before each system call. C161_others: whatever they keep true elsewhere is still true. C161_acts and C161_two: system calls and whole methods for paths in another directory are of this kind. C161_program: the same for programs of such calls. C161_same_code: without others the step by step methods are those of the other theorems. C161_apart_needed: what others do at or below the directory shows. One step each, see DESIGN.md: samefile, copystat, and the copying of a whole directory by shutil.move; the clock stands still during a call."
  },
  {
   "property": "C162",
   "status": "proved",
   "theorems": [
    "C162_rest",
    "C162_own",
    "C162_then",
    "C162_half",
    "C162_witness"
   ],
   "note": "C162_rest: wherever the method is stopped, nothing outside the directory, nor the current directory, clock and umask, has changed, and the links still do not lead away. C162_own: the answer and what is left at and below the directory depend on what was there only. C162_then: programs run afterwards give the same answers. C162_half: the method is not all or nothing. The steps are those of C161 (DESIGN.md); writing one block and the copying of a whole directory by shutil.move are one step."
  },
  {
   "property": "C163",
   "status": "proved",
   "theorems": [
    "C163_stopped",
    "C163_again",
    "C163_makedirs",
    "C163_witness",
    "C163_makedirs_witness"
   ],
   "note": "C163_stopped: remove() stopped anywhere has only removed entries. C163_again: after any number of stopped calls, when remove() returns all of what the path named at first is gone, and only removals have happened. C163_makedirs: makedirs() stopped anywhere has only added directories. The steps are those of C161 and C162."
  },
  {
   "property": "C164",
   "status": "proved",
   "theorems": [
    "C164_stopped",
    "C164_again",
    "C164_witness"
   ],
   "note": "C164_stopped: after any number of stopped calls nothing is new but directories on the way, and all else is as it was. C164_again: the next call returns, the directories are there, and the contents of all other paths are those before the first call. The steps are those of C161 and C162."
  },
  {
   "property": "C165",
   "status": "proved",
   "theorems": [
    "C165_stopped",
    "C165_again",
    "C165_witness"
   ],
   "note": "C165_stopped: after any number of stopped calls nothing outside has changed, and inside every entry is as it was or gone. C165_again: the next call with recursive=True returns or finds the path gone already; nothing is left at or below it and the contents of all other paths are those before the first call. The steps are those of C161 and C162."
  },
  {
   "property": "C166",
   "status": "proved",
   "theorems": [
    "C166_stopped",
    "C166_again",
    "C166_witness"
   ],
   "note": "C166_stopped: after any number of stopped calls everything but the destination is as it was, and the destination is as it was or a file. C166_again: the next call returns, the contents are those of the source, and the contents of all other paths are those before the first call. Files only; directories are left out. The steps are those of C161 and C162."
  }
 ]
}

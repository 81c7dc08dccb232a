# Formal model of liblognorm in Rocq/Coq

## 1. What is modelled

The model is a set of executable Gallina functions, one per C function, each with a comment
citing file and lines in /repo and every simplification. The model files contain no proofs.

| file (rocq/theories) | models |
|---|---|
| Base.v | bytes, ctype in the "C" locale, checked reads, the result monad, C integers, libfastjson values |
| Time.v | hParseInt, syslogTime2time_t (parser.c) |
| Parsers.v | all field parsers of parser.c (v2 engine) |
| Engine.v | graph nodes; tryParser, ln_normalizeRec, parseRepeat, fixJSON, add_rule_to_mockup, ln_normalize, metadata (pdag.c, parser.c); tags and annotations at run time (annot.c) |
| Pdag.v | heap of nodes with reference counts; ln_newParser, parser constructors (field configurations), ln_pdagAddParser*, user-defined types, alternative, repeat, optimizer (ln_pdagComponentOptimize, optLitPathCompact), ln_pdagDelete, ln_exitCtx (pdag.c, parser.c, liblognorm.c) |
| Samp.v | rulebase reader: lines, comments, version=, include=, rule=, prefix=, extendprefix=, type=, annotate=, legacy and JSON field syntax, from files and strings (samp.c, liblognorm.c, annot.c) |
| Err.v | error messages of loading a rulebase (calls of ln_errprintf in samp.c, pdag.c, parser.c) and their delivery (lognorm.c 92-137), callbacks |
| Stat.v | DOT graph, statistics, usage DOT (pdag.c 536-690, 1083-1202), visited flags, identifiers of nodes (pdag.c 420-534); v2, without ADVANCED_STATS |
| Enc.v | CSV, RFC 5424 and XML encoders (enc_csv.c, enc_syslog.c, enc_xml.c) |
| Tool.v | lognormalizer.c: main loop, options -r -R -e -E -T -t -U -P -L -p -i -H |
| V1.v | the v1 engine for rulebases without version=2: prefix tree (v1_ptree.c), matcher and unparsed report, rulebase reader (v1_samp.c, v1_liblognorm.c), field parsers that differ (v1_parser.c), the field types with rules of their own (tokenized, recursive, descent, interpret, suffixed, named_suffixed), the dispatch between the engines (samp.c, pdag.c) |
| Tool2.v | lognormalizer.c: the whole of main with -d -s -S -x -V |
| Own.v | the engine on a heap of libfastjson objects with reference counts (json_object_get/put/object_add/array_add); a list of the references the code drops |
| Conc.v | the engine as a program of single accesses to the shared context; a machine that interleaves such programs |

Undefined behaviour is a distinct outcome (`Ub kind`, `EUb kind`): read outside the message or
outside a literal, table index out of range, write outside an allocation, use of freed memory,
NULL dereference, signed overflow, failed assert, read of an uninitialised byte, division by
zero, exhausted model fuel. A theorem of the form "= Ok ..." or "= EOk ..." therefore also says
that no undefined behaviour happens and that the code returns.

Not modelled: ADVANCED_STATS, the v1 versions of the DOT and statistics output, debug output, the
PCRE-based regex type (switched off by default), lognormalizer option -v,
memory exhaustion, file system errors other than a missing file, integer overflow of statistics
counters in the statistics theorems. Concurrent calls (C92) are modelled as interleavings of single
accesses (sequentially consistent memory) on contexts without annotations: ln_annotate writes a NUL
behind the shared strings of annotations (internal.h ln_es_str2cstr) and may reallocate them. Of the v1 engine: only the regex type. The constructors of the types with rules of their own are evaluated when a field is tried, not when the rule is loaded; the fuel bounds the depth of nesting.

## 2. Files of specifications

Every property is stated in a specification file that does not use the functions it specifies:

| specification | says what |
|---|---|
| FieldSpec.v, FieldSpec2.v | grammar and delivered value of each field type (predicates over byte strings) |
| DateSpec.v | calendar, both date formats |
| SafetySpec.v | the messages and configurations on which a field parser may misbehave |
| EngineSpec.v, EngineSpec2.v | a message matches a rule graph: `walk`/`gwalk`, order of preference, fields of a match, reached positions |
| EngineWf.v | rule graphs on which normalizing cannot go wrong |
| GraphSpec.v, History.v | sound heaps of nodes; all histories of API calls |
| RuleSpec.v, BuiltSpec.v | a rule as a list of literals and fields; what it means that a graph holds a rule; contexts built from rules |
| LineSpec.v, LoadSpec.v, SimSpec.v | a rulebase text as a list of lines; what each line stands for; contexts with the same rules |
| SynSpec.v, TypeSpec.v | the syntax of a rule; what a field configuration stands for |
| AnnotSpec.v | annotation lines and the members they add |
| AltSpec.v | rules with alternatives |
| OneSpec.v | what a rule with nested repeat and user-defined types takes and delivers, without graphs; the event |
| ManySpec.v | the same for many rules and types with many rules; grounded rulebases |
| ErrSpec.v | what an application expects of error messages; rulebase lines without a fault |
| StatSpec.v | what pictures, statistics and identifiers of a rulebase say; a reader for DOT files |
| EncSpec.v | readers for the three output formats (they know nothing of the encoders) |
| ToolSpec.v | the tool as a map over input lines |
| V1Spec.v, V1LoadSpec.v, V1FieldSpec.v | v1 rules, their text, what it means that a message matches one, the event; v1 rulebase files; hazards of v1 fields |
| V1TextSpec.v | the texts and values of the v1 field types |
| V1SubSpec.v | the v1 field types with rules of their own: lists, interpreted numbers, suffixes, rules inside rules |
| OneSpec.v | what one rule with repeat and user-defined types takes and stores (a big-step relation over field results), rulebases with one rule, sane rules |

| ToolSpec2.v, ConcSpec.v | the tool with statistics and pictures; threads, schedules, turns |
| OwnSpec.v | exact reference counts, paths through a field graph, objects that contain each other, the same memory; the value an object stands for, what an application reads message by message |
| V1TrapSpec.v | which lines of a rulebase of the old kind misbehave when it is loaded: the syntax of literals, fields, tags and additions, the prefix in force, the first bad line |

Where a specification mentions a model function this is deliberate and the function has its own
independent characterisation: EngineSpec uses `run_motif` (one field parser), characterised by
C11-C33; BuiltSpec, AltSpec, LineSpec and RuleSpec use the reader of rule text (`rule_confs`) and of field
configurations (`newParser`), characterised by C66 and C67; ToolSpec uses the encoders
(C50-C53) and `normalize` (C01-C07); AnnotSpec uses the table look-up of annotations.

Proof files are named ...Facts.v (and EngineHist, EngineGen, EngineGen2, EngineTotal,
EngineCheck, OptSem, OptTotal, LoadText, LoadSim, LoadTop, LoadTop2, ParserSafe, ParserText, OneEngine, OneTotal, OneTop, ManyTop, ManyTotal, ErrLoad, ErrQuiet).
The claims themselves are in Prop_*.v; each is followed by `Print Assumptions` and an Example
showing that its hypotheses are met by a concrete non-trivial case, mostly a rulebase loaded by
the model from its text.

## 3. Method per property

* C01-C05 (engine): `walk` relation (path through the graph with consecutive pieces) as an
  independent specification; ln_normalizeRec is proved sound and complete for it by induction
  on fuel, first match in depth-first order; failure position by a monotone-maximum invariant.
* C06: normalizing changes only statistics counters, which normalizing does not read.
* C07: a rank function on nodes and the length of the message bound the recursion; refutations for left-recursive
  types and nullable repeat.
* C08-C10: one lemma per parser, collected over the table of parsers.
* C11-C33: one declarative specification per field type; the parser accepts exactly it and
  delivers exactly the value it names. Stronger (documented) readings that are false of the
  code are refuted with a witness, in a theorem named `_refuted`.
* C34-C37: the graph built by adding rules is a tree that holds exactly the rules added
  (invariant by induction over additions), and the normalizer on such a graph succeeds iff a rule matches.
* C38-C39: exact reference counts as an invariant over all histories of API calls; deletion frees every node once.
* C40-C41: the optimizer as a graph transformation that keeps the rules held; sorting by priority.
* C42: alternatives as sets of rules.
* C43-C49, C58: the reader as a function from texts to lists of rules.
* C50-C53: encoders, with separately written readers; reading back what was written, uniqueness.
* C54-C57, C59: result assembly, user-defined types, repeat.
* C60-C65: the tool as a map over lines.
* C66-C67: rule syntax and field configurations.
* C68-C74: the v1 prefix tree holds exactly the effective rules (induction over ln_buildPTree and splitTree); the matcher finds a rule iff one matches (induction over the tree); loading as induction over lines; the field types (C74) by reduction to the lemmas of their v2 namesakes.
* C75-C78: a context generated for a content type behaves like the one field (norm_content); the loop of tokenized against the relation [tokens] by induction over the iterations; recursive and descent by reduction to ln_normalize on the context an application would have.
* C79: one rule makes a graph without branches (OneLoad.v, by induction over the configuration); the optimizer keeps it up to the joining of literals (OneOpt.v); the normalizer on such a graph computes the big-step relation (OneEngine.v, induction over fuel) and, for sane rules, always ends (OneTotal.v, induction over derivations of the relation; the relation is total by induction over the configuration and the rest of the message).

* C79, C80: a big-step reading of rules (`reads`, `takes`) that knows no graph; loading is
  followed line by line with the invariants of C36 (`built`), normalizing is related to it by
  induction on fuel; answers always exist by a measure (rank of the type, rest of the message).
* C81, C82: a second, message-collecting copy of each loading function; simulation of the
  reader (`m_load_ok`), induction on configurations for "an error return implies a message" and
  for "a plain configuration implies none"; ln_errprintf by arithmetic on the buffer sizes.
* C83-C85: each output function against a relational description of the graph below a node;
  the DOT texts are read back by a separately written reader.
* C86-C89: which faults can occur where, as predicates on rules and texts, by following the
  loader and the normalizer; rulebases whose loading reports nothing are free of them.
* C90: the tool of C60-C65 as a part of the whole `main`; counters by comparing the runs over
  the lines with the runs over each line alone.
* C91: the loop of the iptables type against the relation `ipt_pairs`.
* C92: a thread is a tree of accesses (a free monad); run on a context that does not change it
  is the engine of C01-C07 (`normalizeP_den`); every step of the machine keeps what each thread
  still has to compute and to count, so schedules cannot matter.
* C93: the engine on a heap; counts are exact before and after every operation (the references
  held by C variables are a list carried along the proof); objects are only written to while
  nobody refers to them, hence no cycles, hence an object that nobody holds, directly or not, is freed.
* C94: simulation of the engine on values by the engine on objects: an object that is only
  written to while nobody refers to it leaves what all others stand for as it was.

The following list is generated from MANIFEST.json: the code each property is about, the
theorems, and what to know about its scope.

## 4. Property list

* **C01 A match is a real match** (proved). Code: src/pdag.c:ln_normalizeRec, src/pdag.c:ln_normalize, src/pdag.c:tryParser. Theorems: C01_match_is_real, C01_match_is_real_all_graphs. Scope: all graphs (gwalk, EngineSpec2.v); exact coverage for simple field types
* **C02 Backtracking is complete** (proved). Code: src/pdag.c:ln_normalizeRec. Theorems: C02_backtracking_complete, C02_backtracking_complete_all_graphs, C02_match_is_found. Scope: matches through simple field types, in every rulebase graph; C02_match_is_found adds that a definite result exists
* **C03 The first alternative in priority order wins** (proved). Code: src/pdag.c:ln_normalizeRec, src/pdag.c:qsort_parserCmp. Theorems: C03_first_alternative_wins, C03_order_antisymmetric.
* **C04 No field leakage from abandoned alternatives** (proved). Code: src/pdag.c:ln_normalizeRec, src/pdag.c:fixJSON. Theorems: C04_no_leak, C04_exactly_the_fields. Scope: all graphs for absence of leakage; exact field list for simple field types
* **C05 Failure report is exact** (proved). Code: src/pdag.c:ln_normalize, src/pdag.c:addUnparsedField. Theorems: C05_failure_report, C05_failure_report_all_graphs, C05_nul_refuted. Scope: C05_nul_refuted: unparsed-data is cut at a NUL byte
* **C06 Result depends on rulebase and message only** (proved). Code: src/pdag.c:ln_normalize, src/pdag.c:ln_normalizeRec. Theorems: C06_no_memory. Scope: statistics counters aside, which are not visible in the result
* **C07 Normalization terminates** (proved). Code: src/pdag.c:ln_normalizeRec, src/parser.c:ln_v2_parseRepeat. Theorems: C07_terminates, C07_only_field_hazards, C07_returns, C07_left_recursion_refuted, C07_empty_repeat_refuted. Scope: C07_*_refuted: without the conditions ln_normalize does not return (witnesses loaded from rule text, for every fuel)
* **C08 Field parsers never consume more than the remaining message** (proved). Code: src/parser.c. Theorems: C08_consumed_within_message, C08_cee_refuted. Scope: C08_cee_refuted: cee-syslog violates it
* **C09 Field parsers never read outside the message** (proved). Code: src/parser.c. Theorems: C09_hazards_complete, C09_no_read_outside, C09_harmless_messages_are_safe, C09_refuted, C09_divzero_refuted. Scope: C09_refuted shows each hazard with a witness
* **C10 Extracted text is the matched text** (proved). Code: src/parser.c. Theorems: C10_delivered_text_is_consumed_text.
* **C11 number** (proved). Code: src/parser.c:ln_v2_parseNumber. Theorems: C11_number, C11_number_wraps, C11_number_maxval_refuted. Scope: exact for values below 2^63-48 (any platform) and modulo 2^64 on wrapping platforms; the maxval limit is violated by numbers beyond 2^63 (refuted with a witness)
* **C12 hexnumber** (proved). Code: src/parser.c:ln_v2_parseHexNumber. Theorems: C12_hexnumber, C12_hexnumber_refuted. Scope: exact characterisation of what the code accepts; the documented "one or more digits" and the maxval limit beyond 2^64 are refuted
* **C13 float** (proved). Code: src/parser.c:ln_v2_parseFloat. Theorems: C13_float, C13_float_digit_refuted. Scope: exact characterisation; "at least one digit" is refuted
* **C14 ipv4** (proved). Code: src/parser.c:ln_v2_parseIPv4, src/parser.c:chkIPv4AddrByte. Theorems: C14_ipv4. Scope: exact, both directions
* **C15 ipv6** (proved). Code: src/parser.c:ln_v2_parseIPv6. Theorems: C15_ipv6, C15_ipv6_rfc4291, C15_accepts_refuted, C15_rejects_refuted. Scope: C15_accepts_refuted: a word of hex digits, ":::" and 8 blocks + IPv4 are accepted; C15_rejects_refuted: "::" for a single leading block is refused
* **C16 mac48** (proved). Code: src/parser.c:ln_v2_parseMAC48. Theorems: C16_mac48. Scope: exact, both directions
* **C17 Calendar and clock fields** (proved). Code: src/parser.c:ln_v2_parseISODate, src/parser.c:ln_v2_parseTime24hr, src/parser.c:ln_v2_parseTime12hr, src/parser.c:ln_v2_parseDuration. Theorems: C17_date_iso, C17_time24, C17_time12, C17_duration. Scope: exact, both directions, four field types
* **C18 kernel-timestamp** (proved). Code: src/parser.c:ln_v2_parseKernelTimestamp. Theorems: C18_kernel_timestamp. Scope: exact, both directions
* **C19 Run fields: word, alpha, whitespace, rest** (proved). Code: src/parser.c:ln_v2_parseWord, src/parser.c:ln_v2_parseAlpha, src/parser.c:ln_v2_parseWhitespace, src/parser.c:ln_v2_parseRest. Theorems: C19_word, C19_alpha, C19_whitespace, C19_rest. Scope: exact, both directions, four field types
* **C20 Delimiter fields: char-to, char-sep** (proved). Code: src/parser.c:ln_v2_parseCharTo, src/parser.c:ln_v2_parseCharSeparated. Theorems: C20_char_to, C20_char_sep. Scope: exact, both directions
* **C21 string-to** (proved). Code: src/parser.c:ln_v2_parseStringTo. Theorems: C21_string_to, C21_string_to_one_char_refuted. Scope: exact for search strings of two or more bytes; one-byte search strings never match (refuted)
* **C22 quoted-string and op-quoted-string** (proved). Code: src/parser.c:ln_v2_parseQuotedString, src/parser.c:ln_v2_parseOpQuotedString. Theorems: C22_quoted_string, C22_op_quoted_string, C22_unnamed_refuted, C22_nul_refuted. Scope: C22_unnamed_refuted: op-quoted-string without a name dereferences NULL; C22_nul_refuted: its value stops at NUL
* **C23 literal** (proved). Code: src/parser.c:ln_v2_parseLiteral. Theorems: C23_literal, C23_literal_nul_refuted. Scope: exact when neither the literal nor the message contains a NUL byte; with a NUL in the message the comparison leaves the literal (refuted)
* **C24 date-rfc3164** (proved). Code: src/parser.c:ln_v2_parseRFC3164Date. Theorems: C24_date_rfc3164, C24_year_ignored_refuted, C24_form_refuted. Scope: C24_year_ignored_refuted: the year of the message is not used; C24_form_refuted: non-existing days and empty components pass
* **C25 date-rfc5424** (proved). Code: src/parser.c:ln_v2_parseRFC5424Date. Theorems: C25_date_rfc5424, C25_form_refuted, C25_range_refuted. Scope: C25_form_refuted: RFC 5424 digit counts are not enforced, February 31 passes; C25_range_refuted: with ten digits in a row range checks are modulo 2^32
* **C26 Timestamps are converted correctly** (proved). Code: src/parser.c:syslogTime2time_t. Theorems: C26_timestamps, C26_timestamps_rfc3164, C26_days_count, C26_other_years. Scope: C26_other_years: 0 outside 1970..2100
* **C27 name-value-list** (proved). Code: src/parser.c:ln_v2_parseNameValue, src/parser.c:parseNameValue. Theorems: C27_name_value_list, C27_always_matches_refuted, C27_escape_kept_refuted. Scope: C27_always_matches_refuted: it succeeds on every text, possibly taking nothing; C27_escape_kept_refuted: backslashes stay in the value
* **C28 v2-iptables** (proved). Code: src/parser.c:ln_v2_parsev2IPTables. Theorems: C28_iptables, C28_one_field_refuted. Scope: C28_one_field_refuted: a single field or trailing text fails
* **C29 cef** (proved). Code: src/parser.c:ln_v2_parseCEF. Theorems: C29_cef_header, C29_cef_wellformed, C29_empty_field_refuted, C29_trailing_backslash_refuted, C29_loose_refuted, C29_short_refuted. Scope: C29_empty_field_refuted: assertion failure; C29_trailing_backslash_refuted: uninitialised memory is used; C29_loose_refuted: malformed extensions accepted; C29_short_refuted
* **C30 checkpoint-lea** (proved). Code: src/parser.c:ln_v2_parseCheckpointLEA. Theorems: C30_checkpoint_lea, C30_empty_refuted, C30_trim_refuted. Scope: C30_empty_refuted: no field at all is accepted (null), a name may be empty; C30_trim_refuted
* **C31 cisco-interface-spec** (proved). Code: src/parser.c:ln_v2_parseCiscoInterfaceSpec. Theorems: C31_cisco, C31_second_slash_refuted, C31_loose_refuted. Scope: C31_second_slash_refuted: the character between ip2 and port2 is not checked; C31_loose_refuted
* **C32 json and cee-syslog** (proved). Code: src/parser.c:ln_v2_parseJSON, src/parser.c:ln_v2_parseCEESyslog. Theorems: C32_json, C32_cee, C32_array_refuted, C32_cee_offset_refuted. Scope: C32_array_refuted: no array is ever accepted; C32_cee_offset_refuted: behind other text cee-syslog reports a position behind the end
* **C33 string** (proved). Code: src/parser.c:ln_v2_parseString, src/parser.c:ln_constructString. Theorems: C33_string, C33_high_byte_refuted, C33_nul_refuted, C33_doubling_refuted, C33_dangling_refuted. Scope: C33_high_byte_refuted: bytes above 127 read outside the table; C33_nul_refuted: writes outside the value; C33_doubling_refuted; C33_dangling_refuted
* **C34 A loaded rule is matchable** (proved). Code: src/pdag.c:ln_pdagAddParser, src/pdag.c:ln_pdagAddParserInstance, src/samp.c:addSampToTree. Theorems: C34_loaded_rule_matches, C34_second_load_refuted. Scope: C34_second_load_refuted: a second load into an already optimized context violates it
* **C35 Adding a rule never removes a match** (proved). Code: src/pdag.c:ln_pdagAddParser, src/pdag.c:ln_pdagAddParserInstance. Theorems: C35_adding_keeps_matches. Scope: same scope as C36
* **C36 A rule matches nothing else** (proved). Code: src/pdag.c:ln_pdagAddParserInstance. Theorems: C36_loaded_text, C36_loaded_file, C36_exactly_the_rules, C36_rule_adds_exactly_its_messages, C36_alternative_refuted. Scope: C36_loaded_text/_file: from the text of the rulebase; C36_alternative_refuted: with alternatives a rule may add other messages
* **C37 Rule storage limits** (proved). Code: src/pdag.h:ln_pdag.nparsers, src/pdag.c:ln_pdagAddParserInstance. Theorems: C37_no_loss_up_to_255, C37_256_refuted. Scope: C37_256_refuted: the 256th field at one place wipes out the place
* **C38 The rule graph is acyclic and reference counts are exact** (proved). Code: src/pdag.c:ln_newPDAG, src/pdag.c:ln_pdagAddParserInstance, src/pdag.c:ln_pdagDelete. Theorems: C38_any_history_safe, C38_loading_never_uses_freed, C38_normalize_never_uses_freed, C38_add_keeps_exact, C38_optimize_keeps_exact. Scope: normalize_never_uses_freed: also normalization never uses freed memory. C39_leak_refuted: with 256 different fields at one place references are lost, so exact counts do not hold unconditionally
* **C39 Deleting a context frees every node exactly once** (proved). Code: src/pdag.c:ln_pdagDelete, src/pdag.c:pdagDeletePrs. Theorems: C39_exit_never_uses_freed, C39_exit_frees_all, C39_leak_refuted. Scope: C39_leak_refuted: 256 different fields at one place leak nodes
* **C40 The optimizer does not change results** (proved). Code: src/pdag.c:ln_pdagOptimize, src/pdag.c:ln_pdagComponentOptimize, src/pdag.c:optLitPathCompact. Theorems: C40_same_messages_match, C40_fields_of_a_match, C40_same_fields_if_unambiguous, C40_ambiguous_refuted, C40_unparsed_refuted. Scope: C40_ambiguous_refuted, C40_unparsed_refuted: which of several matches is reported, and unparsed-data of a failure, may change
* **C41 After optimization parsers are in priority order** (proved). Code: src/pdag.c:ln_pdagComponentOptimize, src/pdag.c:ln_newParser. Theorems: C41_priority_is_lexicographic, C41_priority_of_field, C41_sorted_permutation, C41_overflow_refuted. Scope: C41_overflow_refuted: larger assigned priorities overflow
* **C42 alternative means union** (proved). Code: src/pdag.c:ln_pdagAddParserAlternative, src/pdag.c:ln_pdagAddParserInternal. Theorems: C42_alternatives_are_unions, C42_same_as_one_rule_per_choice, C42_tags_of_a_matching_rule, C42_shared_field_refuted, C42_sequence_refuted. Scope: Rules whose steps are single fields, alternatives of single fields, or arrays of them, built-in types; rules that have no field in common where they part; at most 255 fields in one place. Without these conditions the claim is false: C42_shared_field_refuted (continuation lost, or other rule's rest follows the wrong alternative), C42_sequence_refuted (arrays as alternatives). Optimized and unoptimized graphs. C42_same_as_one_rule_per_choice compares with the rulebase that has one plain rule per choice.
* **C43 Rule text round-trip for literals** (proved). Code: src/samp.c:parseLiteral, src/samp.c:addSampToTree. Theorems: C43_literal_rule. Scope: string input; backslash escapes are libestr code (a parameter of the model)
* **C44 Comments, blank lines and a missing final newline do not matter** (proved). Code: src/samp.c:ln_sampRead, src/samp.c:ln_loadSamplesFromString. Theorems: C44_comments_and_blank_lines_string, C44_comments_and_blank_lines_file, C44_last_line_feed_string, C44_last_line_feed_file, C44_same_rules_same_results. Scope: C44_same_rules_same_results: same rules give the same results
* **C45 prefix and extendprefix** (proved). Code: src/samp.c:processRule, src/samp.c:getPrefix, src/samp.c:extendPrefix. Theorems: C45_prefix_string, C45_prefix_file, C45_empty_rule_refuted, C45_extend_first_refuted. Scope: C45_empty_rule_refuted, C45_extend_first_refuted: an empty rule behind a prefix is dropped; extendprefix without prefix dereferences NULL
* **C46 Rulebase lines are never silently mangled** (proved). Code: src/samp.c:ln_sampReadLine, src/samp.c:ln_sampRead. Theorems: C46_string_line_by_line, C46_file_line_by_line, C46_error_not_reported_refuted, C46_byte_255_refuted, C46_short_rest_refuted. Scope: C46_error_not_reported_refuted: lines in error are skipped and success is returned; C46_byte_255_refuted: byte 255 ends a string; C46_short_rest_refuted: fewer than 5 bytes after an open field are lost
* **C47 Tags** (proved). Code: src/samp.c:processTags, src/pdag.c:ln_normalize. Theorems: C47_tags_of_matched_rule, C47_refuted, C47_tags_as_written, C47_empty_tag_refuted. Scope: C47_refuted for rules ending in an empty field (tags of another rule ending at the same node are possible); C47_empty_tag_refuted
* **C48 Duplicate rules** (proved). Code: src/samp.c:addSampToTree, src/pdag.c:ln_pdagAddParser. Theorems: C48_last_duplicate_wins. Scope: the code keeps the tags of the last duplicate, not of the first
* **C49 Annotations** (proved). Code: src/annot.c:ln_addAnnotToSet, src/annot.c:ln_combineAnnot, src/annot.c:ln_annotate. Theorems: C49_annotated_event, C49_annotations_of_text, C49_older_wins_refuted, C49_empty_value_refuted, C49_trailing_blank_refuted. Scope: C49_older_wins_refuted, C49_empty_value_refuted (NULL dereference), C49_trailing_blank_refuted (endless loop)
* **C50 CSV output can be read back** (proved). Code: src/enc_csv.c:ln_fmtEventToCSV, src/enc_csv.c:ln_addValue_CSV. Theorems: C50_csv_reads_back, C50_every_list, C50_rfc4180, C50_rfc4180_refuted, C50_arrays_refuted. Scope: Decoding theorem with uniqueness for the JSON-style unescape, RFC 4180 under the plain-value condition; C50_rfc4180_refuted and C50_arrays_refuted show that the conditions are needed.
* **C51 RFC5424 structured data can be read back** (proved). Code: src/enc_syslog.c:ln_fmtEventToRFC5424, src/enc_syslog.c:ln_addValue_Syslog. Theorems: C51_structured_data_reads_back, C51_with_tags, C51_rfc5424_refuted, C51_names_tags_refuted, C51_null_refuted. Scope: Existence and uniqueness of the reading; C51_rfc5424_refuted (comma, LF under the plain RFC 5424 reading), C51_names_tags_refuted (names/tags copied unescaped), C51_null_refuted (null member: assertion).
* **C52 XML output is well formed** (proved). Code: src/enc_xml.c:ln_fmtEventToXML, src/enc_xml.c:ln_addValue_XML. Theorems: C52_xml_reads_back, C52_with_tags, C52_wellformed_refuted. Scope: Existence and uniqueness of the reading; C52_wellformed_refuted: control bytes, names and tags are copied as they are.
* **C53 Encoder return codes** (proved). Code: src/enc_syslog.c:ln_fmtEventToRFC5424, src/enc_xml.c:ln_fmtEventToXML, src/enc_csv.c:ln_fmtEventToCSV. Theorems: C53_return_codes, C53_success_refuted. Scope: Exact return codes; C53_success_refuted refutes the stronger reading '0 exactly on success'.
* **C54 Field names '-', '.' and '..'** (proved). Code: src/pdag.c:fixJSON. Theorems: C54_named_field, C54_store.
* **C55 Rule metadata** (proved). Code: src/pdag.c:addRuleMetadata, src/pdag.c:add_rule_to_mockup, src/pdag.c:ln_normalize. Theorems: C55_metadata.
* **C56 User-defined types consume what they match** (proved). Code: src/pdag.c:tryParser. Theorems: C56_custom_type_value, C56_refuted. Scope: C56_refuted: it does not always continue exactly at the end of the match
* **C57 repeat** (proved). Code: src/parser.c:ln_v2_parseRepeat. Theorems: C57_repeat_value, C57_refuted. Scope: C57_refuted: a part may start behind the end of the one before and skip text
* **C58 Every configured field is usable** (proved). Code: src/pdag.c:ln_newParser, src/parser.c:ln_constructStringTo, src/parser.c:ln_constructCharTo. Theorems: C58_loaded_text_works, C58_loaded_file_works, C58_incomplete_refuted. Scope: C58_incomplete_refuted: a field with incomplete configuration loads and makes ln_normalize dereference NULL
* **C59 Message text is preserved** (proved). Code: src/pdag.c:ln_normalize, src/pdag.c:addOriginalMsg. Theorems: C59_originalmsg. Scope: every rulebase
* **C60 lognormalizer: every line once, in order** (proved). Code: src/lognormalizer.c:normalize, src/lognormalizer.c:read_line. Theorems: C60_every_line_once, C60_every_input_has_lines, C60_inputs_add_up, C60_last_line_refuted. Scope: every input (C60_every_input_has_lines); C60_inputs_add_up: outputs of consecutive inputs add up. C60_last_line_refuted: a last line without line feed loses its last character.
* **C61 lognormalizer: -p and -P divide the records** (proved). Code: src/lognormalizer.c:normalize. Theorems: C61_parsed_or_unparsed, C61_verdict_of_the_library, C61_unparsed_data_refuted. Scope: C61_unparsed_data_refuted: a matching message can bring a field unparsed-data with it and is then counted as unparsed.
* **C62 lognormalizer: raw output is the input** (proved). Code: src/lognormalizer.c:outputEvent, src/lognormalizer.c:read_line. Theorems: C62_raw_is_the_input.
* **C63 lognormalizer: -t keeps the tagged records** (proved). Code: src/lognormalizer.c:eventHasTag, src/lognormalizer.c:normalize. Theorems: C63_only_tagged_lines, C63_no_unparsed. Scope: option -L aside (it numbers the unparsed lines)
* **C64 lognormalizer: counters** (proved). Code: src/lognormalizer.c:normalize. Theorems: C64_counts. Scope: counters as unbounded numbers
* **C65 lognormalizer: options and exit code** (proved). Code: src/lognormalizer.c:main. Theorems: C65_exit_code, C65_two_rulebases, C65_last_record_option, C65_every_option, C65_three_times_refuted. Scope: C65_three_times_refuted: -R, -r, -R is accepted.
* **C66 The syntax of rules** (proved). Code: src/samp.c:addFieldDescr, src/samp.c:ln_parseLegacyFieldDescr, src/samp.c:parseLiteral, src/samp.c:addSampToTree. Theorems: C66_field_description, C66_literal_text, C66_rule_text, C66_unambiguous, C66_parameters_override, C66_missing_percent_sign_refuted, C66_broken_parameters_refuted. Scope: C66_missing_percent_sign_refuted and C66_broken_parameters_refuted: two errors that are accepted silently.
* **C67 What a field configuration means** (proved). Code: src/pdag.c:ln_newParser, src/pdag.c:parser_lookup_table, src/parser.c:ln_constructString, src/parser.c:ln_constructNumber. Theorems: C67_field_of_configuration, C67_string_options, C67_unknown_type, C67_priority. Scope: parameters of the type the documentation asks for (texts without NUL, integers); repeat and alternative: C57, C42.
* **C68 v1 rulebases: success reports a rule** (proved). Code: src/v1_ptree.c:ln_v1_normalizeRec, src/v1_ptree.c:ln_v1_normalize, src/v1_ptree.c:ln_buildPTree, src/v1_ptree.c:splitTree, src/v1_samp.c:ln_v1_processSamp, src/v1_liblognorm.c:ln_v1_loadSamples. Theorems: C68_v1_file_loads, C68_success_reports_a_rule, C68_faulty_rule_refuted, C68_iptables_refuted, C68_rest_refuted, C68_same_name_refuted. Scope: tame rules (iptables and rest last), well-formed rule texts, lines below 10K. Fields of all types but regex. C68_faulty_rule_refuted, C68_iptables_refuted, C68_rest_refuted: without this a message no rule describes is reported; C68_same_name_refuted. matches_closed: fields may be tried at the very end of the message, where only the types of may_be_empty match.
* **C69 v1 rulebases: a matching rule is found** (proved). Code: src/v1_ptree.c:ln_v1_normalizeRec, src/v1_ptree.c:ln_addFDescrToPTree, src/v1_ptree.c:ln_buildPTree. Theorems: C69_matching_rule_found, C69_exactly_the_rules, C69_more_rules_no_loss, C69_empty_field_refuted, C69_empty_rest_refuted. Scope: C69_empty_field_refuted: whether an empty char-sep at the end of the message matches depends on other rules; C69_empty_rest_refuted.
* **C70 v1 rulebases: failure report** (proved). Code: src/v1_ptree.c:addUnparsedField, src/v1_ptree.c:ln_v1_normalize. Theorems: C70_failure_report, C70_longest_refuted. Scope: C70_longest_refuted: the reported position is not the furthest reached.
* **C71 v1 rulebases: an answer for every message** (proved). Code: src/v1_ptree.c:ln_v1_normalizeRec, src/v1_parser.c. Theorems: C71_always_answers, C71_hazards_complete, C71_refuted. Scope: C71_refuted: each condition is needed (NUL in the message reads outside it, missing extra data, extendprefix without prefix).
* **C72 v1 rulebases: state of the context** (proved). Code: src/samp.c:ln_sampLoad, src/samp.c:doOldCruft, src/pdag.c:ln_normalize. Theorems: C72_normalize_keeps_context, C72_second_file_replaces, C72_v2_file_refused, C72_v1_file_refused, C72_string_refuted, C72_first_file_lost_refuted. Scope: C72_string_refuted: loading a string switches to the v2 engine; C72_first_file_lost_refuted: two v1 files do not add up.
* **C73 v1 field types: positions and hazards** (proved). Code: src/v1_parser.c. Theorems: C73_hazards_complete, C73_no_read_outside, C73_ends_inside, C73_not_at_the_end, C73_position_refuted. Scope: C73_position_refuted: checkpoint-lea and cef go back, cee-syslog ends behind the message.
* **C74 v1 field types: texts and values** (proved). Code: src/v1_parser.c:PARSER(Number), src/v1_parser.c:PARSER(StringTo), src/v1_parser.c:PARSER(CharTo), src/v1_parser.c:PARSER(CiscoInterfaceSpec), src/v1_parser.c:PARSER(NameValue), src/v1_parser.c:PARSER(CEF), src/v1_parser.c:PARSER(CheckpointLEA). Theorems: C74_plain_fields, C74_quoted_string, C74_op_quoted_string, C74_cisco, C74_json, C74_cee, C74_v2_iptables, C74_name_value_list, C74_checkpoint_lea, C74_cef_header, C74_cef_wellformed, C74_high_byte_refuted, C74_cisco_value_refuted, C74_cee_position_refuted, C74_lea_position_refuted, C74_cef_first_byte_refuted. Scope: grammars of FieldSpec, FieldSpec2, DateSpec and V1TextSpec. cef: exact for the header, one direction (well-formed messages) for the extensions. C74_high_byte_refuted, C74_cisco_value_refuted, C74_cee_position_refuted, C74_lea_position_refuted, C74_cef_first_byte_refuted.
* **C75 v1 lists (tokenized)** (proved). Code: src/v1_parser.c:PARSER(Tokenized), src/v1_parser.c:tokenized_parser_data_constructor, src/v1_parser.c:generate_context_with_field_as_prefix. Theorems: C75_tokenized_list, C75_tokenized_fails, C75_tokenized_at_end, C75_tokenized_objects, C75_tokenized_numbers, C75_trailing_separator_refuted, C75_empty_separator_refuted, C75_missing_file_refuted. Scope: exact (iff) for content types, and for recursive/descent items under the hypothesis that the remaining field is not longer than the text; C75_tokenized_numbers is an instance. Content type iptables excluded. C75_trailing_separator_refuted, C75_empty_separator_refuted (endless loop), C75_missing_file_refuted (NULL).
* **C76 v1 interpretation of values** (proved). Code: src/v1_parser.c:PARSER(Interpret), src/v1_parser.c:interpret_parser_data_constructor, src/v1_parser.c:reinterpret_value. Theorems: C76_interpret, C76_interpret_no_content, C76_no_match_refuted, C76_int_of_int_refuted, C76_not_a_number_refuted. Scope: for contents whose value is a text; doubles are represented by their text. C76_no_match_refuted (never fails), C76_int_of_int_refuted (use after free), C76_not_a_number_refuted.
* **C77 v1 suffixes** (proved). Code: src/v1_parser.c:PARSER(Suffixed), src/v1_parser.c:_suffixed_parser_data_constructor, src/v1_parser.c:named_suffixed_parser_data_constructor. Theorems: C77_suffixed, C77_no_suffix, C77_nothing_left_refuted, C77_longest_suffix_refuted. Scope: content that leaves something: else the code follows a NULL pointer (C77_nothing_left_refuted). C77_longest_suffix_refuted: the first, not the longest suffix wins.
* **C78 v1 rules inside rules** (proved). Code: src/v1_parser.c:PARSER(Recursive), src/v1_parser.c:recursive_parser_data_constructor, src/v1_parser.c:descent_parser_data_constructor, src/v1_liblognorm.c:ln_v1_inherittedCtx. Theorems: C78_rest_by_rules, C78_no_rule, C78_misbehaviour, C78_recursion_refuted, C78_goes_back_refuted. Scope: the fuel bounds the nesting depth. C78_recursion_refuted (endless recursion at every depth), C78_goes_back_refuted (the position can move left, because annotations can set the remaining field).
* **C79 One rule, repeat and user-defined types** (proved). Code: src/samp.c:processType, src/samp.c:processRule, src/pdag.c:ln_pdagAddParser, src/pdag.c:tryParser, src/pdag.c:ln_normalizeRec, src/parser.c:ln_constructRepeat, src/parser.c:PARSER_Parse(Repeat). Theorems: C79_one_rule_text, C79_one_rule_file, C79_unique, C79_outcome_exists, C79_always_answers, C79_two_rules_refuted, C79_named_while_refuted. Scope: the event is exact with the options addRule and addRuleLocation off; on failure the event is the failure report with some remaining text (which: C05). With several rules the claim is false: C79_two_rules_refuted, C56_refuted, C57_refuted; a named field in a while part dereferences NULL (C79_named_while_refuted).
* **C80 Many rules and user-defined types** (proved). Code: src/samp.c:processType, src/samp.c:processRule, src/pdag.c:ln_pdagFindType, src/pdag.c:tryParser, src/pdag.c:ln_normalizeRec, src/pdag.c:ln_pdagOptimize. Theorems: C80_many_rules_text, C80_many_rules_file, C80_always_answers_text, C80_always_answers_file, C80_self_first_refuted. Scope: options addRule and addRuleLocation off for the exact event. Stronger readings are false: a type ends where the furthest attempt ended, not where its rule ended, so there may be gaps and a rule with a type may be overlooked (C56_refuted); a type that uses itself first never ends (C80_self_first_refuted).
* **C81 Faults of a rulebase are reported** (proved). Code: src/lognorm.c:ln_errprintf, src/samp.c:processRule, src/samp.c:processType, src/samp.c:getTypeName, src/samp.c:addFieldDescr, src/samp.c:processAnnotate, src/samp.c:ln_sampReadLine, src/samp.c:ln_sampLoad, src/pdag.c:ln_newParser, src/pdag.c:ln_pdagAddParserInternal, src/parser.c:ln_constructString, src/parser.c:ln_constructRepeat. Theorems: C81_rule_line_reported, C81_type_line_reported, C81_failed_load_reported, C81_failed_file_reported, C81_messages_of_text, C81_messages_of_file, C81_line_numbers, C81_line_numbers_file, C81_no_false_alarm, C81_no_false_alarm_file, C81_every_fault_reported_refuted, C81_no_false_alarm_string_refuted, C81_ends_with_text_refuted, C81_reported_is_harmless_refuted. Scope: Err.v models the calls of ln_errprintf; the text of strerror and the second message for a missing file are left out. Stronger readings are false: C81_every_fault_reported_refuted (five kinds of faulty lines are ignored silently), C81_no_false_alarm_string_refuted (%-:string%), C81_ends_with_text_refuted (messages about field descriptions print from a buffer without end mark), C81_reported_is_harmless_refuted (a literal without text is reported, then loading follows a NULL pointer).
* **C82 Delivery of error messages** (proved). Code: src/lognorm.c:ln_errprintf, src/liblognorm.c:ln_setErrMsgCB, src/liblognorm.c:ln_setDebugCB. Theorems: C82_only_with_callback, C82_complete_message, C82_complete_with_reason, C82_line_readable, C82_never_too_long, C82_cookie_refuted, C82_debug_cookie_refuted, C82_length_refuted. Scope: C82_cookie_refuted, C82_debug_cookie_refuted: the callback gets the cookie of the debug callback (lognorm.c 134); C82_length_refuted: the length handed over is larger than the text when the text is cut.
* **C83 DOT graph of a rulebase** (proved). Code: src/pdag.c:ln_genDotPDAGGraph, src/pdag.c:ln_genDotPDAGGraphRec, src/pdag.c:ln_fullPDagStatsDOT, src/pdag.c:ln_genStatsDotPDAGGraphRec, src/pdag.c:ln_pdagClearVisited. Theorems: C83_graph, C83_usage_graph, C83_literals_refuted. Scope: C83_literals_refuted: two rulebases that differ in a quote and a backslash have the same picture. Graphs of user-defined types and inside repeat are not part of the picture.
* **C84 Statistics of a rulebase** (proved). Code: src/pdag.c:ln_fullPdagStats, src/pdag.c:ln_pdagStats, src/pdag.c:ln_pdagStatsRec. Theorems: C84_statistics, C84_twice_refuted, C84_longest_refuted. Scope: C84_twice_refuted: flags are not cleared afterwards, so a second report says there are no nodes. C84_longest_refuted: with shared nodes a path of 5 nodes is reported as 3. Nodes with 100 and more fields are counted but not printed.
* **C85 Identifiers and usage report** (proved). Code: src/pdag.c:ln_pdagComponentSetIDs, src/pdag.c:fixComponentID, src/pdag.c:ln_pdagOptimize, src/pdag.c:ln_pdagStatsExtended, src/pdag.c:ln_fullPdagStats. Theorems: C85_identifiers, C85_usage, C85_unshared, C85_again_refuted. Scope: C85_again_refuted: identifiers are not reset before the next load, which then garbles them ("[|]").
* **C86 What can go wrong with a message** (proved). Code: src/pdag.c:ln_normalize, src/pdag.c:ln_normalizeRec, src/pdag.c:tryParser, src/pdag.c:fixJSON, src/pdag.c:addRuleMetadata, src/annot.c:ln_annotate, src/parser.c:PARSER_Parse(Repeat), src/parser.c:PARSER_Parse(CEESyslog). Theorems: C86_only_listed_faults, C86_no_traps_safe, C86_listed_faults_occur. Scope: Every listed cause does occur: C86_listed_faults_occur (endless recursion: C07). The memory model is the one of C08-C10 and C38.
* **C87 What can go wrong with a rulebase** (proved). Code: src/samp.c:ln_sampRead, src/samp.c:ln_processSamp, src/samp.c:processRule, src/samp.c:processTags, src/samp.c:processType, src/samp.c:processAnnotate, src/samp.c:processInclude, src/samp.c:extendPrefix, src/samp.c:addFieldDescr, src/samp.c:ln_parseLegacyFieldDescr, src/pdag.c:ln_newParser, src/pdag.c:ln_pdagAddParserInternal, src/pdag.c:ln_pdagOptimize, src/parser.c:ln_constructString, src/parser.c:ln_constructRepeat. Theorems: C87_string, C87_file, C87_texts_stay, C87_texts_init, C87_plain_loads, C87_traps_occur, C87_include_ends_refuted, C87_simple_rules, C87_simple_rules_load, C87_simple_rules_meets, C87_good_lines_load, C87_good_file_loads, C87_good_lines_meets, C87_fatal_lines, C87_fatal_lines_file, C87_fatal_meets. Scope: C87_simple_rules, C87_simple_rules_load: rules of literals and of fields %name:type% and %name:type:extra% are never a trap, so such a rulebase is always loaded; C87_good_lines_load, C87_good_file_loads: the same from the lines of the rulebase (comments, prefix, rule and type lines of such fields). The other direction, C87_fatal_lines and C87_fatal_lines_file: behind such lines an extendprefix line where no prefix is set, an include line without a name, an empty tag and white space behind the annotations of a line are fatal whatever follows. Every trap does occur (C87_traps_occur). C87_include_ends_refuted: a file that includes itself. A file of the old format is left to the v1 engine (C68-C78). A trap is described by the lines of the text: comments are no lines, line feeds inside of fields are taken out.
* **C88 Mistakes in a field description are reported** (proved). Code: src/pdag.c:ln_newParser, src/pdag.c:ln_pdagAddParserInternal, src/parser.c:ln_constructNumber, src/parser.c:ln_constructFloat, src/parser.c:ln_constructHexNumber, src/parser.c:ln_constructRFC5424Date, src/parser.c:ln_constructRFC3164Date, src/parser.c:ln_constructString, src/parser.c:stringProcessQMODE, src/parser.c:ln_constructNameValue, src/parser.c:ln_constructCheckpointLEA, src/parser.c:ln_constructRepeat, src/parser.c:chkNoDupeDotInParserDefs, src/parser.c:ln_constructLiteral, src/parser.c:ln_constructCharTo. Theorems: C88_field_reported, C88_no_other_message, C88_text_reported, C88_file_reported, C88_only_mistakes_refuted. Scope: C88_only_mistakes_refuted: a string field named "-" is reported although nothing is wrong with it; alternative_reported: so is an alternative among other fields. When the description makes the library crash (C87) there is no report.
* **C89 A rulebase about which nothing was reported** (proved). Code: src/pdag.c:ln_newParser, src/pdag.c:ln_pdagAddParserInstance, src/pdag.c:ln_pdagOptimize, src/parser.c:ln_constructLiteral, src/parser.c:ln_constructCharTo, src/parser.c:ln_constructString, src/parser.c:ln_constructNameValue, src/parser.c:ln_constructRepeat, src/lognorm.c:ln_errprintf. Theorems: C89_complete, C89_graph, C89_next_load, C89_messages, C89_success_is_enough_refuted. Scope: C89_success_is_enough_refuted: a load that returns success may have left a field without data (it has reported it), on which the next message crashes.
* **C90 lognormalizer: statistics and pictures** (proved). Code: src/lognormalizer.c:main, src/lognormalizer.c:genDOT, src/pdag.c:ln_fullPdagStats, src/pdag.c:ln_fullPDagStatsDOT, src/pdag.c:ln_genDotPDAGGraph. Theorems: C90_rest_unchanged, C90_no_crash, C90_picture, C90_use, C90_exit_code, C90_picture_succeeds_refuted. Scope: C90_picture_succeeds_refuted: -d, which the documentation calls "print DOT file of the parse graph", ends with the exit code of a failure.
* **C91 v1 rulebases: iptables** (proved). Code: src/v1_ptree.c:ln_iptablesParser, src/v1_ptree.c:ln_v1_normalizeRec. Theorems: C91_pairs, C91_recognised, C91_event, C91_trailing_blank_refuted, C91_better_rule_refuted. Scope: C91_trailing_blank_refuted: blanks at the end of the message bring a member with an empty name. C91_better_rule_refuted: an iptables field takes whatever gets to it, also when another rule describes the message better.
* **C92 Concurrent calls on one context** (proved). Code: src/pdag.c:ln_normalize, src/pdag.c:ln_normalizeRec, src/pdag.c:tryParser, src/parser.c:PARSER_Parse(Repeat), src/pdag.h:struct ln_pdag. Theorems: C92_same_answers, C92_no_new_crash, C92_finishes, C92_counters_atomic, C92_counters_refuted. Scope: C92_counters_refuted: with plain increments (load, then store), as in the code, visits get lost in the counters. Annotations are excluded because ln_annotate writes to (and may reallocate) the strings of the shared annotation set. Memory is sequentially consistent in the model.
* **C93 No JSON object is leaked or misused** (proved). Code: src/pdag.c:ln_normalize, src/pdag.c:ln_normalizeRec, src/pdag.c:tryParser, src/pdag.c:fixJSON, src/pdag.c:addRuleMetadata, src/annot.c:ln_annotate, src/parser.c:PARSER_Parse(Repeat). Theorems: C93_no_misuse, C93_counts, C93_no_leak, C93_start, C93_type_refuted, C93_dots_refuted. Scope: C93_start: the heap of a loaded context meets the hypotheses. C93_type_refuted, C93_dots_refuted: what the two exclusions are about; the value object made for a field of a user-defined type is lost whenever the type does not match (pdag.c 1438-1439, 1572-1574), and one reference is lost when two members "." are found (parser.c 3255-3266). Field parsers are taken to deliver one fresh value on success and nothing on failure (audited, not modelled: parser.c 1884-1888, 2320-2324, 2566-2567, 3049-3052, 3137-3140).
* **C94 Every event is a value of its own** (proved). Code: src/pdag.c:ln_normalize, src/pdag.c:ln_normalizeRec, src/pdag.c:tryParser, src/pdag.c:fixJSON, src/pdag.c:addRuleMetadata, src/annot.c:ln_annotate, src/parser.c:PARSER_Parse(Repeat). Theorems: C94_start_tags, C94_same_event, C94_others, C94_session. Scope: C94_same_event: whenever the engine on values (Engine.v) ends without a fault, so does the engine on objects, with the same answer, and the event then reads as the value of Engine.v (and as no other). C94_others needs that no object contains itself. C94_session is about a heap just loaded and any messages for which the engine ends (C05, C08, C87). The engine of Own.v and that of Engine.v are two models of the same functions; this theorem says that they agree, so what is proved of events elsewhere holds of the objects.
* **C95 What can go wrong while loading a rulebase of the old kind** (proved). Code: src/v1_liblognorm.c:ln_v1_loadSamples, src/v1_samp.c:ln_v1_sampRead, src/v1_samp.c:ln_v1_processSamp, src/v1_samp.c:processTags, src/v1_samp.c:extendPrefix, src/v1_samp.c:getAnnotationOp, src/v1_samp.c:ln_v1_parseFieldDescr, src/v1_samp.c:addSampToTree. Theorems: C95_exactly, C95_else_success, C95_any_file, C95_plain_loads, C95_bad_lines_occur. Scope: C95_exactly is an equivalence, for files that consist of lines in the sense of LineSpec.v (every text whose lines are shorter than 10K, except where a field goes on behind a line feed and the next line looks like a rule: v1_samp.c 809-815 gives such a line up). C95_any_file has no condition on the text and gives one direction, with the lines and prefixes the file can bring about. The misbehaviours are those of the model: a NULL pointer (v1_samp.c 475, 497), a read behind the rule (134), and OutOfFuel for a loop that never ends, whatever the fuel (679-680 with 749-751). C95_bad_lines_occur shows each; C95_ex_good neighbours that do no harm.

## 5. Trusted base

* The kernel of Coq 8.16.1. `Print Assumptions` stands under every theorem in Prop_*.v and
  answers "Closed under the global context" for all of them: no axiom is used, neither of the
  standard library nor own ones. (A whole-library listing also shows the seven constants of
  Coq.ssr.ssrunder, fields of a module type in the standard library that comes in with the
  ssreflect tactic files; no theorem depends on them.)
* The reading of the C code: the model was written by hand from the source; there is no
  extraction and the C code was not run. The comments in the model files give file and lines.
* Environment assumptions, all of them fields of the record `env` over which every theorem
  quantifies, never axioms: the JSON tokener of libfastjson (`json_tok`, where it stops, how
  numbers print), es_unescapeStr of libestr, the current year, the contents of files, whether plain
  char is signed, whether asserts are compiled in, whether signed overflow wraps. Theorems that need a property of
  the tokener state it as a hypothesis (`tok_ok`) and show an environment that has it.
* The C "C" locale; malloc never fails; the message buffer is readable at str[strLen], where there is a NUL
  (ln_normalize uses it as a C string).
* C `size_t` positions are natural numbers (messages shorter than 2^64 bytes); lognormalizer's own
  counters are natural numbers. Integers whose wrap-around matters (number, hexnumber, dates,
  priorities) are modelled with their width.
* libfastjson objects are association lists in insertion order; adding an existing member
  replaces its value in place, adding with the "new key" option appends.

## 6. Findings in the code, each with a theorem

The `_refuted` theorems each exhibit an input on which the code violates what its documentation
or its interface suggests; list: `grep -h "^Theorem .*_refuted" rocq/theories/Prop_*.v`. The most serious:
memory errors (C09_refuted, C22_unnamed_refuted, C29_*_refuted, C33_high_byte_refuted,
C33_nul_refuted, C45_extend_first_refuted, C49_empty_value_refuted, C58_incomplete_refuted,
C51_null_refuted), endless loops (C07_*_refuted, C49_trailing_blank_refuted), lost rules (C37_256_refuted,
C39_leak_refuted, C45_empty_rule_refuted), silent acceptance of errors (C46_error_not_reported_refuted, C66_*_refuted).
The v1 engine: wrong matches (C68_*_refuted), memory errors (C71_refuted), rules silently dropped (C72_first_file_lost_refuted). Field types with rules of their own: endless loop, endless recursion, NULL pointers, use after free (C75_*_refuted to C78_*_refuted).

## 7. Testing the theorems

seeded/LOG.jsonl: realistic wrong edits of the model definitions, each in a scratch copy; the
theorems that failed, and, where the theorem for the claim survived, how it was tightened.
The harness replaces each broken proof by Admitted and goes on, so that the log names every
theorem that depends on a broken proof.

{"id": "C01", "title": "A match is a real match", "statement": "If ln_normalize reports success, there is a path through the loaded rules from the start to a rule end such that each step's field (or literal) accepts a piece of the message at its position, and the delivered fields are those of that path. When the path uses simple field types only, the pieces put together are exactly the message (no gap, no overlap). A user-defined type or repeat field starts where the step before ended and goes on at or behind the end of its own match.", "quantifier": "every rulebase graph, every message, every caller-supplied object", "why_tests_cant": "The claim quantifies over every rulebase (every graph shape) and every message at once; no finite set of rulebases covers it.", "anchors": ["src/pdag.c:ln_normalizeRec", "src/pdag.c:ln_normalize", "src/pdag.c:tryParser"]}
{"id": "C02", "title": "Backtracking is complete", "statement": "If some rule can match the whole message through simple field types (some root-to-terminal path whose parsers accept consecutive pieces that cover it), ln_normalize reports success when it returns; it never misses such a match because an earlier alternative was tried first, also when other alternatives use user-defined types or repeat.", "quantifier": "every rulebase graph, every message", "why_tests_cant": "The claim quantifies over every rulebase (every graph shape) and every message at once; no finite set of rulebases covers it.", "anchors": ["src/pdag.c:ln_normalizeRec"]}
{"id": "C03", "title": "The first alternative in priority order wins", "statement": "On a rulebase of simple field types: when several rules match the message, the fields returned are those of the match that is first in depth-first order of each node's parser list (priority order); that first match is unique.", "quantifier": "every rulebase graph of simple field types, every message with several matches", "why_tests_cant": "The claim quantifies over every rulebase (every graph shape) and every message at once; no finite set of rulebases covers it.", "anchors": ["src/pdag.c:ln_normalizeRec", "src/pdag.c:qsort_parserCmp"]}
{"id": "C04", "title": "No field leakage from abandoned alternatives", "statement": "On success the output holds exactly the fields stored along the successful path (plus tags, annotations, metadata and what the caller passed in): no field extracted on a path that was later abandoned appears in the result.", "quantifier": "every rulebase graph, every message", "why_tests_cant": "The claim quantifies over every rulebase (every graph shape) and every message at once; no finite set of rulebases covers it.", "anchors": ["src/pdag.c:ln_normalizeRec", "src/pdag.c:fixJSON"]}
{"id": "C05", "title": "Failure report is exact", "statement": "On failure the object holds what the caller passed in plus exactly originalmsg (the message) and unparsed-data (the rest of the message from some position, up to a NUL byte if there is one). That position is 0 or one that some alternative got to, no alternative made of simple field types got further, and no rule made of simple field types matches; on a rulebase of simple field types it is therefore exactly the furthest position.", "quantifier": "every rulebase graph, every message", "why_tests_cant": "The claim quantifies over every rulebase (every graph shape) and every message at once; no finite set of rulebases covers it.", "anchors": ["src/pdag.c:ln_normalize", "src/pdag.c:addUnparsedField"]}
{"id": "C06", "title": "Result depends on rulebase and message only", "statement": "The result of normalizing a message does not depend on which messages were normalized before with the same context.", "quantifier": "every sequence of ln_normalize calls on one context", "why_tests_cant": "The claim is about every sequence of calls, of any length; tests run a few fixed sequences.", "anchors": ["src/pdag.c:ln_normalize", "src/pdag.c:ln_normalizeRec"]}
{"id": "C07", "title": "Normalization terminates", "statement": "ln_normalize returns for every message on every rulebase in which no user-defined type or repeat refers back to itself, type definitions and repeated parsers take at least one field, and repeat separators take at least one byte; apart from the listed hazards of single fields it cannot fail in any other way. (Without these conditions it may not return: a left-recursive type, an empty repeat.)", "quantifier": "every rulebase graph with these properties, every message, every nesting of types and repeats", "why_tests_cant": "Non-termination cannot be observed by a test; the bound must hold for every graph.", "anchors": ["src/pdag.c:ln_normalizeRec", "src/parser.c:ln_v2_parseRepeat"]}
{"id": "C08", "title": "Field parsers never consume more than the remaining message", "statement": "Every field parser other than cee-syslog that reports success reports a consumed length not larger than what remains of the message.", "quantifier": "every field type but cee-syslog, every configuration, every message and offset", "why_tests_cant": "The claim is about every byte string of every length; tests only sample a few log lines.", "anchors": ["src/parser.c"]}
{"id": "C09", "title": "Field parsers never read outside the message", "statement": "No field parser reads a byte outside the message buffer (its bytes and its terminating NUL), whatever the message; any other misbehaviour (integer overflow, table index, NULL, assert) happens only under the conditions listed per field type: more digits in a row than the integer type holds, an embedded NUL, bytes >= 128 for string, a trailing backslash for cef, an unnamed op-quoted-string, a field with incomplete configuration. Messages free of these are processed without undefined behaviour by every field.", "quantifier": "every field type, every message and offset", "why_tests_cant": "The claim is about every byte string of every length; tests only sample a few log lines.", "anchors": ["src/parser.c"]}
{"id": "C10", "title": "Extracted text is the matched text", "statement": "For the field types documented to deliver the matched text, the delivered string is exactly the piece of the message that the parser consumed.", "quantifier": "every such field type, every message and offset", "why_tests_cant": "The claim is about every byte string of every length; tests only sample a few log lines.", "anchors": ["src/parser.c"]}
{"id": "C11", "title": "number", "statement": "The number field accepts exactly a maximal non-empty run of decimal digits and consumes it all; with format=number it delivers its value. This is exact, including the maxval limit, whenever the value is below 2^63-48; beyond that the value is the number modulo 2^64 on platforms that wrap.", "quantifier": "every message, offset and maxval", "why_tests_cant": "The claim is about every byte string of every length; tests only sample a few log lines.", "anchors": ["src/parser.c:ln_v2_parseNumber"]}
{"id": "C12", "title": "hexnumber", "statement": "The hexnumber field accepts exactly 0x followed by a maximal run of hex digits (possibly empty) and then white space, with the value (modulo 2^64) within maxval if one is set; with format=number it delivers that value.", "quantifier": "every message, offset and maxval", "why_tests_cant": "The claim is about every byte string of every length; tests only sample a few log lines.", "anchors": ["src/parser.c:ln_v2_parseHexNumber"]}
{"id": "C13", "title": "float", "statement": "The float field accepts exactly the maximal run of: optional '-', digits with at most one '.', if it is not empty, and consumes it.", "quantifier": "every message and offset", "why_tests_cant": "The claim is about every byte string of every length; tests only sample a few log lines.", "anchors": ["src/parser.c:ln_v2_parseFloat"]}
{"id": "C14", "title": "ipv4", "statement": "The ipv4 field accepts exactly a dotted quad of four decimal numbers 0..255 of one to three digits each (greedy), and consumes exactly it.", "quantifier": "every message and offset", "why_tests_cant": "The claim is about every byte string of every length; tests only sample a few log lines.", "anchors": ["src/parser.c:ln_v2_parseIPv4", "src/parser.c:chkIPv4AddrByte"]}
{"id": "C15", "title": "ipv6", "statement": "The ipv6 field accepts exactly: 1 to 8 blocks of 1-4 hex digits with colons, or blocks around one '::' (or ':::') with fewer than 8 blocks counted, followed by white space or the end, or the same with an IPv4 address in place of the last block; it takes the address and delivers its text. Every full or '::'-abbreviated RFC 4291 address (at most six blocks written) and every address ending in IPv4 is among them.", "quantifier": "every message and offset", "why_tests_cant": "The claim is about every byte string of every length; tests only sample a few log lines.", "anchors": ["src/parser.c:ln_v2_parseIPv6"]}
{"id": "C16", "title": "mac48", "statement": "The mac48 field accepts exactly six two-digit hex groups separated uniformly by ':' or uniformly by '-'.", "quantifier": "every message and offset", "why_tests_cant": "The claim is about every byte string of every length; tests only sample a few log lines.", "anchors": ["src/parser.c:ln_v2_parseMAC48"]}
{"id": "C17", "title": "Calendar and clock fields", "statement": "date-iso, time-24hr, time-12hr and duration accept exactly their documented fixed formats with in-range components.", "quantifier": "every message and offset", "why_tests_cant": "The claim is about every byte string of every length; tests only sample a few log lines.", "anchors": ["src/parser.c:ln_v2_parseISODate", "src/parser.c:ln_v2_parseTime24hr", "src/parser.c:ln_v2_parseTime12hr", "src/parser.c:ln_v2_parseDuration"]}
{"id": "C18", "title": "kernel-timestamp", "statement": "The kernel-timestamp field accepts exactly '[' 5 to 12 digits '.' 6 digits ']'.", "quantifier": "every message and offset", "why_tests_cant": "The claim is about every byte string of every length; tests only sample a few log lines.", "anchors": ["src/parser.c:ln_v2_parseKernelTimestamp"]}
{"id": "C19", "title": "Run fields: word, alpha, whitespace, rest", "statement": "word takes the maximal non-empty run of non-space bytes, alpha the maximal non-empty run of letters, whitespace the maximal non-empty run of white space, rest everything that remains (possibly nothing).", "quantifier": "every message and offset", "why_tests_cant": "The claim is about every byte string of every length; tests only sample a few log lines.", "anchors": ["src/parser.c:ln_v2_parseWord", "src/parser.c:ln_v2_parseAlpha", "src/parser.c:ln_v2_parseWhitespace", "src/parser.c:ln_v2_parseRest"]}
{"id": "C20", "title": "Delimiter fields: char-to, char-sep", "statement": "char-to takes the maximal non-empty run without any terminator and requires a terminator to follow; char-sep takes the maximal possibly empty run without any terminator.", "quantifier": "every message, offset and terminator set", "why_tests_cant": "The claim is about every byte string of every length; tests only sample a few log lines.", "anchors": ["src/parser.c:ln_v2_parseCharTo", "src/parser.c:ln_v2_parseCharSeparated"]}
{"id": "C21", "title": "string-to", "statement": "string-to with a search string of two or more bytes matches iff the search string occurs in the rest of the message after at least one character, and takes the text before its first such occurrence.", "quantifier": "every message, offset and search string of two or more bytes", "why_tests_cant": "The claim is about every byte string of every length; tests only sample a few log lines.", "anchors": ["src/parser.c:ln_v2_parseStringTo"]}
{"id": "C22", "title": "quoted-string and op-quoted-string", "statement": "quoted-string takes a '\"', the text up to the next '\"' and that quote, and delivers it with the quotes; op-quoted-string, used with a name, takes such a quoted string (delivering the inside) or else a non-empty run of bytes other than blank not starting with a quote.", "quantifier": "every message and offset", "why_tests_cant": "The claim is about every byte string of every length; tests only sample a few log lines.", "anchors": ["src/parser.c:ln_v2_parseQuotedString", "src/parser.c:ln_v2_parseOpQuotedString"]}
{"id": "C23", "title": "literal", "statement": "A literal step accepts exactly when the message continues with the literal text and consumes exactly that text (literal and message without NUL bytes).", "quantifier": "every message, offset and literal", "why_tests_cant": "The claim is about every byte string of every length; tests only sample a few log lines.", "anchors": ["src/parser.c:ln_v2_parseLiteral"]}
{"id": "C24", "title": "date-rfc3164", "statement": "The date-rfc3164 field succeeds exactly on a month name (any case), a blank (or two), a day 1..31, a blank, optionally a year 1971..2099 and a blank, hour, minute and second in range separated by colons (each a run of digits), and a colon if there is one; it consumes exactly that and delivers it, or that time of the current year as seconds or milliseconds since 1970.", "quantifier": "every message and offset without ten digits in a row, every format, named or not", "why_tests_cant": "The claim is about every byte string of every length; tests only sample a few log lines.", "anchors": ["src/parser.c:ln_v2_parseRFC3164Date"]}
{"id": "C25", "title": "date-rfc5424", "statement": "The date-rfc5424 field succeeds exactly on timestamps of the form year-month-dayThour:minute:second[.fraction](Z|+hh:mm|-hh:mm), each component a run of digits with an in-range value, followed by a blank or the end of the message; it consumes exactly the timestamp and delivers it, or the seconds or milliseconds since 1970.", "quantifier": "every message and offset without ten digits in a row, every format, named or not", "why_tests_cant": "The claim is about every byte string of every length; tests only sample a few log lines.", "anchors": ["src/parser.c:ln_v2_parseRFC5424Date"]}
{"id": "C26", "title": "Timestamps are converted correctly", "statement": "With format=timestamp-unix the delivered number is the number of seconds from 1970-01-01T00:00:00Z to the parsed time in the Gregorian calendar, the zone offset being subtracted; with timestamp-unix-ms it is 1000 times that plus the milliseconds of the fraction.", "quantifier": "every year 1970..2100, month, day, time, fraction and offset (date-rfc5424); every current year in that range (date-rfc3164)", "why_tests_cant": "All 130 years x 366 days x 86400 seconds x zone offsets; tests pick a few dates.", "anchors": ["src/parser.c:syslogTime2time_t"]}
{"id": "C27", "title": "name-value-list", "statement": "name-value-list takes exactly the longest chain of pairs name=value (configured assignator, name of the default alphabet or without the assignator; value quoted, or up to the next unescaped separator) with separators between them, and delivers the pairs in order under their names.", "quantifier": "every message and offset, separator and assignator", "why_tests_cant": "The claim is about every byte string of every length; tests only sample a few log lines.", "anchors": ["src/parser.c:ln_v2_parseNameValue", "src/parser.c:parseNameValue"]}
{"id": "C28", "title": "v2-iptables", "statement": "v2-iptables accepts exactly two or more fields NAME, NAME=, NAME=value (upper-case names, no white space in values) separated by exactly one space, with at most one space behind, up to the end of the message, and delivers them in order.", "quantifier": "every message and offset", "why_tests_cant": "The claim is about every byte string of every length; tests only sample a few log lines.", "anchors": ["src/parser.c:ln_v2_parsev2IPTables"]}
{"id": "C29", "title": "cef", "statement": "Whatever the cef field accepts starts with 'CEF:0|' and six header fields, is taken to the end, and the header fields delivered are the unescaped texts; every well-formed CEF message is accepted and its extensions are delivered unescaped under their names.", "quantifier": "every message and offset", "why_tests_cant": "The claim is about every byte string of every length; tests only sample a few log lines.", "anchors": ["src/parser.c:ln_v2_parseCEF"]}
{"id": "C30", "title": "checkpoint-lea", "statement": "checkpoint-lea accepts exactly sequences of 'name: value;' with blanks allowed in front of names and values, up to the terminator or the end of the message, and delivers the pairs without these blanks.", "quantifier": "every message and offset", "why_tests_cant": "The claim is about every byte string of every length; tests only sample a few log lines.", "anchors": ["src/parser.c:ln_v2_parseCheckpointLEA"]}
{"id": "C31", "title": "cisco-interface-spec", "statement": "cisco-interface-spec accepts exactly the forms [interface:]ip/port[ (ip2Xport2)][[ ](username)], X being any one character, takes the optional parts if they are there, and delivers the parts.", "quantifier": "every message and offset without 19 digits in a row (every message, where integers wrap)", "why_tests_cant": "The claim is about every byte string of every length; tests only sample a few log lines.", "anchors": ["src/parser.c:ln_v2_parseCiscoInterfaceSpec"]}
{"id": "C32", "title": "json and cee-syslog", "statement": "The json field accepts exactly the JSON texts starting with '{' and takes as much as the JSON library does; cee-syslog accepts exactly '@cee:' white space and a JSON object to the end of the message. json reports the bytes taken, cee-syslog the length of the whole message.", "quantifier": "every message and offset, every behaviour of the JSON library within its contract", "why_tests_cant": "The claim is about every byte string of every length; tests only sample a few log lines.", "anchors": ["src/parser.c:ln_v2_parseJSON", "src/parser.c:ln_v2_parseCEESyslog"]}
{"id": "C33", "title": "string", "statement": "The string field accepts exactly quoted text (permitted characters, configured escapes, up to the first unescaped end quote) or unquoted text (up to a blank or a character not permitted), with a blank or the end behind it in exact mode, and delivers the text with the escapes removed.", "quantifier": "every message, offset and configuration (end quote other than backslash and NUL); the taken text holds no NUL and, where char is signed, no byte above 127", "why_tests_cant": "The claim is about every byte string of every length; tests only sample a few log lines.", "anchors": ["src/parser.c:ln_v2_parseString", "src/parser.c:ln_constructString"]}
{"id": "C34", "title": "A loaded rule is matchable", "statement": "After a load every message that the field sequence of a loaded rule matches is normalized successfully.", "quantifier": "every sequence of at most 255 rule lines of built-in field types (no user-defined types, repeat or alternative; lines with errors may be among them), loaded in one go, with the final optimization done or not; every message without NUL; every qsort and printer", "why_tests_cant": "The claim quantifies over every rulebase (every graph shape) and every message at once; no finite set of rulebases covers it.", "anchors": ["src/pdag.c:ln_pdagAddParser", "src/pdag.c:ln_pdagAddParserInstance", "src/samp.c:addSampToTree"]}
{"id": "C35", "title": "Adding a rule never removes a match", "statement": "A message that was normalized successfully before rules were added to a rulebase is still normalized successfully afterwards.", "quantifier": "every sequence of at most 255 rule lines of built-in field types (no user-defined types, repeat or alternative; lines with errors may be among them), loaded in one go, with the final optimization done or not; every message without NUL; every qsort and printer", "why_tests_cant": "The claim quantifies over every rulebase (every graph shape) and every message at once; no finite set of rulebases covers it.", "anchors": ["src/pdag.c:ln_pdagAddParser", "src/pdag.c:ln_pdagAddParserInstance"]}
{"id": "C36", "title": "A rule matches nothing else", "statement": "A rulebase matches exactly the messages matched by the field sequence of one of its rules; adding a rule adds exactly the messages matched by that rule's field sequence and no other messages. For a rulebase text: it loads, and matches exactly the messages matched by one of the rules written in it.", "quantifier": "every rulebase text of built-in field types with at most 255 rule lines, from a string or from a file (string: no NUL and no end-of-file byte; lines under 64 KiB; no include lines), lines in error among them; every message without NUL; every qsort and printer", "why_tests_cant": "The claim quantifies over every rulebase (every graph shape) and every message at once; no finite set of rulebases covers it.", "anchors": ["src/pdag.c:ln_pdagAddParserInstance"]}
{"id": "C37", "title": "Rule storage limits", "statement": "Up to 255 alternatives at one place in the rules are held without losing one.", "quantifier": "every sequence of at most 255 rule lines of built-in field types (no user-defined types, repeat or alternative; lines with errors may be among them), loaded in one go, with the final optimization done or not; every message without NUL; every qsort and printer", "why_tests_cant": "The failure appears only at one boundary count.", "anchors": ["src/pdag.h:ln_pdag.nparsers", "src/pdag.c:ln_pdagAddParserInstance"]}
{"id": "C38", "title": "The rule graph is acyclic and reference counts are exact", "statement": "Whatever a program does with a context (load any rulebase text, valid or not, from strings or files, and normalize any messages), the rule graph is acyclic, no reference leads to freed memory, and every node's reference count is the number of references to it plus references lost for good; no reference is lost while no place in the rules has more than 255 different fields. Loading never touches freed memory.", "quantifier": "every history of loads and normalizations, every rulebase text, every qsort", "why_tests_cant": "The claim is about every sequence of calls, of any length; tests run a few fixed sequences.", "anchors": ["src/pdag.c:ln_newPDAG", "src/pdag.c:ln_pdagAddParserInstance", "src/pdag.c:ln_pdagDelete"]}
{"id": "C39", "title": "Deleting a context frees every node exactly once", "statement": "After any history ln_exitCtx terminates without touching freed memory (no double free, no use after free), and it frees every node if no reference was lost (no place ever had more than 255 different fields).", "quantifier": "every history; every graph", "why_tests_cant": "The claim is about every sequence of calls, of any length; tests run a few fixed sequences.", "anchors": ["src/pdag.c:ln_pdagDelete", "src/pdag.c:pdagDeletePrs"]}
{"id": "C40", "title": "The optimizer does not change results", "statement": "The graph optimization at the end of loading (parser sorting and literal path compaction) does not change which messages match; the fields extracted after it are those of a match of the graph before it, hence the same fields when the message has only one possible result.", "quantifier": "every graph (safe, of simple fields, literals without NUL), every message without NUL, every qsort", "why_tests_cant": "The claim quantifies over every rulebase (every graph shape) and every message at once; no finite set of rulebases covers it.", "anchors": ["src/pdag.c:ln_pdagOptimize", "src/pdag.c:ln_pdagComponentOptimize", "src/pdag.c:optLitPathCompact"]}
{"id": "C41", "title": "After optimization parsers are in priority order", "statement": "After loading, every node's parser list is a permutation of the parsers added, sorted by assigned priority (0 to 2^23-1, default 30000) first and then by built-in parser priority.", "quantifier": "every graph with priorities in that range, every qsort that sorts by the comparison function", "why_tests_cant": "The claim quantifies over every rulebase (every graph shape) and every message at once; no finite set of rulebases covers it.", "anchors": ["src/pdag.c:ln_pdagComponentOptimize", "src/pdag.c:ln_newParser"]}
{"id": "C42", "title": "alternative means union", "statement": "A rulebase whose rules contain fields of type alternative (each alternative a single field) matches exactly the messages that one of its rules matches when one of the alternatives is chosen for each such field - the same messages as with one plain rule for every choice - and the tags reported are those of a matching rule; provided that rules which part at some point have no field in common there and at most 255 fields share one place.", "quantifier": "every set of such rules, with any number of alternatives anywhere, every message, graph optimized or not", "why_tests_cant": "The claim quantifies over every rulebase (every graph shape) and every message at once; no finite set of rulebases covers it.", "anchors": ["src/pdag.c:ln_pdagAddParserAlternative", "src/pdag.c:ln_pdagAddParserInternal"]}
{"id": "C43", "title": "Rule text round-trip for literals", "statement": "A rule whose sample text is a literal l (percent signs written '%%') matches exactly the message l.", "quantifier": "every literal text without NUL, line feed and backslash that fits a line, every message without NUL", "why_tests_cant": "The claim is about every byte string of every length; tests only sample a few log lines.", "anchors": ["src/samp.c:parseLiteral", "src/samp.c:addSampToTree"]}
{"id": "C44", "title": "Comments, blank lines and a missing final newline do not matter", "statement": "Inserting comment lines or empty lines into a rulebase, or dropping the last line feed, does not change the verdict of loading, the loaded rules or the results of normalization (rule locations aside, which name other line numbers).", "quantifier": "every rulebase made of lines (fields may span lines in strings), comments and empty lines, from a string or from a file", "why_tests_cant": "The claim is about every byte string of every length; tests only sample a few log lines.", "anchors": ["src/samp.c:ln_sampRead", "src/samp.c:ln_loadSamplesFromString"]}
{"id": "C45", "title": "prefix and extendprefix", "statement": "With prefix=p (and extendprefix=q) in force, a rule 'rule=:r' with r not empty is loaded exactly as the rule with text p (q) r would be: both rulebases load with the same verdict and hold the same rules.", "quantifier": "every sequence of prefix, extendprefix (after a prefix), rule, type and other lines but include, from a string or from a file", "why_tests_cant": "The claim is about every sequence of calls, of any length; tests run a few fixed sequences.", "anchors": ["src/samp.c:processRule", "src/samp.c:getPrefix", "src/samp.c:extendPrefix"]}
{"id": "C46", "title": "Rulebase lines are never silently mangled", "statement": "Every line of a rulebase is processed exactly once, in the order written, with its own line number, lines being joined exactly where a field is still open; the load then finishes with the optimization.", "quantifier": "every rulebase text that is well formed into lines (lines under 64 KiB, no NUL, no end-of-file byte in a string), every context loaded into before", "why_tests_cant": "The claim is about every byte string of every length; tests only sample a few log lines.", "anchors": ["src/samp.c:ln_sampReadLine", "src/samp.c:ln_sampRead"]}
{"id": "C47", "title": "Tags", "statement": "On success event.tags is the list of tags, in the order written, of a rule line of the rulebase whose field sequence matches the message. (For other rulebases: if the last field of the match took at least one byte, it is exactly the tag list stored for the matched rule.)", "quantifier": "every rulebase text of built-in field types with at most 255 rule lines, from a string or from a file (string: no NUL and no end-of-file byte; lines under 64 KiB; no include lines), lines in error among them; every message without NUL; every qsort and printer", "why_tests_cant": "The claim is about every byte string of every length; tests only sample a few log lines.", "anchors": ["src/samp.c:processTags", "src/pdag.c:ln_normalize"]}
{"id": "C48", "title": "Duplicate rules", "statement": "When a rule is loaded again with other tags, the tags of the last one loaded are the ones reported.", "quantifier": "every sequence of at most 255 rule lines of built-in field types (no user-defined types, repeat or alternative; lines with errors may be among them), loaded in one go, with the final optimization done or not; every message without NUL; every qsort and printer", "why_tests_cant": "The claim quantifies over every rulebase (every graph shape) and every message at once; no finite set of rulebases covers it.", "anchors": ["src/samp.c:addSampToTree", "src/pdag.c:ln_pdagAddParser"]}
{"id": "C49", "title": "Annotations", "statement": "On success, for every tag of the event (the tags, as written, of a matching rule line) and every field annotated for it, the field is present with an annotated value (the annotated value, if all annotations agree); fields not annotated for a tag of the event are as without annotations; a failed normalization is not annotated.", "quantifier": "every annotation set read from well-formed annotate lines (added in any order), every event; every rulebase text of built-in field types with at most 255 rule lines, from a string or from a file (string: no NUL and no end-of-file byte; lines under 64 KiB; no include lines), lines in error among them; every message without NUL; every qsort and printer", "why_tests_cant": "The claim is about every sequence of calls, of any length; tests run a few fixed sequences.", "anchors": ["src/annot.c:ln_addAnnotToSet", "src/annot.c:ln_combineAnnot", "src/annot.c:ln_annotate"]}
{"id": "C50", "title": "CSV output can be read back", "statement": "The CSV encoder writes one column per name in the given list (cut at commas and blanks), in that order: the column is empty for a missing or null member and otherwise quoted, and un-escaping it as a JSON string gives the member's text (arrays: bracketed, elements last to first). There is no other way to read the line. An RFC 4180 reader gets the same columns as long as no value holds a control character, a quote or a backslash (with a backslash it does not).", "quantifier": "every list of field names and every event", "why_tests_cant": "The claim is about every byte string of every length; tests only sample a few log lines.", "anchors": ["src/enc_csv.c:ln_fmtEventToCSV", "src/enc_csv.c:ln_addValue_CSV"]}
{"id": "C51", "title": "RFC5424 structured data can be read back", "statement": "For an event whose member names are RFC 5424 parameter names and whose values are not null, the structured-data encoding reads as exactly one parameter per member in order, with the member's text (arrays: items last to first), and in no other way: no value can break out of its parameter. Tags, if any, come first and are readable when they hold no reserved character (names and tags are not escaped).", "quantifier": "every event", "why_tests_cant": "The claim is about every byte string of every length; tests only sample a few log lines.", "anchors": ["src/enc_syslog.c:ln_fmtEventToRFC5424", "src/enc_syslog.c:ln_addValue_Syslog"]}
{"id": "C52", "title": "XML output is well formed", "statement": "For an event whose member names can stand in a quoted attribute and whose values are not null, the XML encoding reads as exactly one field element per member in order, holding the member's text (arrays: one value element each, last to first), and in no other way: no value can break out of its element. Tags come first and are readable when they hold no < or &.", "quantifier": "every event", "why_tests_cant": "The claim is about every byte string of every length; tests only sample a few log lines.", "anchors": ["src/enc_xml.c:ln_fmtEventToXML", "src/enc_xml.c:ln_addValue_XML"]}
{"id": "C53", "title": "Encoder return codes", "statement": "Return codes of the encoders: CSV returns 0 exactly when a name list is given; RFC 5424 and XML return 0 exactly when the event has an event.tags array without null element, and -1 otherwise, although the text is complete unless a tag is null (so the code does not tell success from failure).", "quantifier": "every event", "why_tests_cant": "The claim is about every byte string of every length; tests only sample a few log lines.", "anchors": ["src/enc_syslog.c:ln_fmtEventToRFC5424", "src/enc_xml.c:ln_fmtEventToXML", "src/enc_csv.c:ln_fmtEventToCSV"]}
{"id": "C54", "title": "Field names '-', '.' and '..'", "statement": "A field without a name or named '-' is not stored; '.' merges the subfields of an object into the parent; '..' on a single-member object stores the member under the field's own name; any other name stores the value under that name, where it is found if no other field of the match uses the name.", "quantifier": "every field value and every prior event", "why_tests_cant": "The claim is about every byte string of every length; tests only sample a few log lines.", "anchors": ["src/pdag.c:fixJSON"]}
{"id": "C55", "title": "Rule metadata", "statement": "With the option set, the rule mockup reported on success is the text of the matched rule (literals verbatim, fields as %name:type%), and the location is file and line of the rule end reported (that of the matched rule if its last field took at least one byte); without the options the metadata is absent.", "quantifier": "every rulebase graph of simple field types, every message", "why_tests_cant": "The claim quantifies over every rulebase (every graph shape) and every message at once; no finite set of rulebases covers it.", "anchors": ["src/pdag.c:addRuleMetadata", "src/pdag.c:add_rule_to_mockup", "src/pdag.c:ln_normalize"]}
{"id": "C56", "title": "User-defined types consume what they match", "statement": "The value of a user-defined type field is the object of the fields of a match of one of the type's rules starting at the field's position, and the rest of the rule continues at or behind the end of that match.", "quantifier": "every type definition, every message", "why_tests_cant": "The claim quantifies over every rulebase (every graph shape) and every message at once; no finite set of rulebases covers it.", "anchors": ["src/pdag.c:tryParser"]}
{"id": "C57", "title": "repeat", "statement": "The value of a repeat field is the array of the values of one or more matches of its parser separated by matches of the while parser, each part starting at or behind the end of the one before (with option.permitMismatchInParser also none).", "quantifier": "every inner parser, every message", "why_tests_cant": "The claim quantifies over every rulebase (every graph shape) and every message at once; no finite set of rulebases covers it.", "anchors": ["src/parser.c:ln_v2_parseRepeat"]}
{"id": "C58", "title": "Every configured field is usable", "statement": "A rulebase of usable fields (configuration complete, not cee-syslog, op-quoted-string with a name) loads, and ln_normalize then returns a definite result for every harmless message, success exactly if a rule matches: no load or normalization crashes because of a field.", "quantifier": "every rulebase text of built-in field types with at most 255 rule lines, from a string or from a file (string: no NUL and no end-of-file byte; lines under 64 KiB; no include lines), lines in error among them; every message without NUL; every qsort and printer", "why_tests_cant": "The claim quantifies over every rulebase (every graph shape) and every message at once; no finite set of rulebases covers it.", "anchors": ["src/pdag.c:ln_newParser", "src/parser.c:ln_constructStringTo", "src/parser.c:ln_constructCharTo"]}
{"id": "C59", "title": "Message text is preserved", "statement": "Whatever the outcome, the originalmsg field (when present) is exactly the message.", "quantifier": "every message, every option word", "why_tests_cant": "The claim is about every byte string of every length; tests only sample a few log lines.", "anchors": ["src/pdag.c:ln_normalize", "src/pdag.c:addOriginalMsg"]}
{"id": "C60", "title": "lognormalizer: every line once, in order", "statement": "The command line tool normalizes every line of its input exactly once, in order, each on its own (no line influences what is printed for another), and prints exactly what the lines give, one after the other. (A last line without a line feed is taken without its last character.)", "quantifier": "every input stream, every rulebase, every setting of the options", "why_tests_cant": "The claim is about every input stream and every combination of options; tests run a few files.", "anchors": ["src/lognormalizer.c:normalize", "src/lognormalizer.c:read_line"]}
{"id": "C61", "title": "lognormalizer: -p and -P divide the records", "statement": "What the tool prints with -p and with -P are the records it prints without them, divided: the parsed ones and the unparsed ones, each once and in order; a message that fails to normalize is never among the parsed ones, and one that is normalized is never among the unparsed ones unless its event has a field named unparsed-data.", "quantifier": "every input stream, every rulebase, every other option", "why_tests_cant": "The claim is about every input stream and every combination of options; tests run a few files.", "anchors": ["src/lognormalizer.c:normalize"]}
{"id": "C62", "title": "lognormalizer: raw output is the input", "statement": "With -e raw and no filter the output is the input, byte for byte, if every line ends with a line feed and has no NUL byte and no carriage return at its end.", "quantifier": "every such input stream, every rulebase", "why_tests_cant": "The claim is about every input stream and every combination of options; tests run a few files.", "anchors": ["src/lognormalizer.c:outputEvent", "src/lognormalizer.c:read_line"]}
{"id": "C63", "title": "lognormalizer: -t keeps the tagged records", "statement": "With -t TAG the tool prints exactly what it prints without -t for the sub-sequence of the lines whose event has TAG in event.tags; in particular nothing for messages that do not match.", "quantifier": "every input stream, rulebase and tag", "why_tests_cant": "The claim is about every input stream and every combination of options; tests run a few files.", "anchors": ["src/lognormalizer.c:eventHasTag", "src/lognormalizer.c:normalize"]}
{"id": "C64", "title": "lognormalizer: counters", "statement": "Every line is counted exactly once as parsed, unparsed or dropped for its tag, and the numbers reported at the end (-H, -U, dropped entries) are these.", "quantifier": "every input stream, every rulebase, every setting of the options", "why_tests_cant": "The claim is about every input stream and every combination of options; tests run a few files.", "anchors": ["src/lognormalizer.c:normalize"]}
{"id": "C65", "title": "lognormalizer: options and exit code", "statement": "The tool either ends with exit code 1 and prints no record, or it has loaded the rulebase given, normalized the whole input and ends with 0; -r and -R given once each are refused in either order; every other option sets what it says and nothing else, the last of several (-p or -P, -e, -E, -t) counting; an unknown option, or an unknown argument of -o, is refused.", "quantifier": "every sequence of options (other than -v; for -d, -s, -S, -x and -V see also C90), every rulebase and input", "why_tests_cant": "The claim is about every input stream and every combination of options; tests run a few files.", "anchors": ["src/lognormalizer.c:main"]}
{"id": "C66", "title": "The syntax of rules", "statement": "A rule text is literal text (percent signs doubled) and field descriptions; a field description is %NAME:TYPE%, %NAME:TYPE:EXTRADATA%, %NAME:TYPE{JSON PARAMETERS}% (with or without extra data) or %JSON%, with blanks allowed before the name and behind the type. Text that has the form is read as exactly the fields written, in one way only, and every other text is refused; JSON parameters replace name, type and extra data of the same key. (Exceptions: extra data may run to the end of the text without a closing percent sign, and parameters that are no JSON are ignored.)", "quantifier": "every text, every JSON reader and unescape function", "why_tests_cant": "The claim is about every rule text and configuration, including malformed ones; tests show a few spellings.", "anchors": ["src/samp.c:addFieldDescr", "src/samp.c:ln_parseLegacyFieldDescr", "src/samp.c:parseLiteral", "src/samp.c:addSampToTree"]}
{"id": "C67", "title": "What a field configuration means", "statement": "The type name of a configuration selects the field type, its parameters (format, maxval, extradata, text, separator, assignator, terminator and the options of type string) are those given or the documented defaults, a name '-' or none means that the value is not stored, an unknown type is refused, and the priority is the assigned one (default 30000), then that of the type.", "quantifier": "every configuration object with distinct keys", "why_tests_cant": "The claim is about every rule text and configuration, including malformed ones; tests show a few spellings.", "anchors": ["src/pdag.c:ln_newParser", "src/pdag.c:parser_lookup_table", "src/parser.c:ln_constructString", "src/parser.c:ln_constructNumber"]}
{"id": "C68", "title": "v1 rulebases: success reports a rule", "statement": "A rulebase file without 'version=2' whose rules are well formed loads, and when a message is normalized successfully, the event is that of one rule of the file: the rule's items take the whole message piece by piece, the event holds the value of every named field (of fields with the same name the first), the tags of the rule (of the last of several rules with the same items) as event.tags and the annotations of the tags, and else what the caller put in. (Rules with iptables and rest only as last field.)", "quantifier": "every file content, every message, every caller-supplied object, every earlier load of v1 files", "why_tests_cant": "The claim is about every rulebase of the old format and every message; tests load a few rulebases.", "anchors": ["src/v1_ptree.c:ln_v1_normalizeRec", "src/v1_ptree.c:ln_v1_normalize", "src/v1_ptree.c:ln_buildPTree", "src/v1_ptree.c:splitTree", "src/v1_samp.c:ln_v1_processSamp", "src/v1_liblognorm.c:ln_v1_loadSamples"]}
{"id": "C69", "title": "v1 rulebases: a matching rule is found", "statement": "With such a rulebase a message that a rule matches is normalized successfully, whatever other rules there are and in whatever order; if no field can match the empty text the messages normalized are exactly those that match a rule, and adding or reordering rules loses no message.", "quantifier": "every file content, every message", "why_tests_cant": "The claim is about every rulebase of the old format and every message; tests load a few rulebases.", "anchors": ["src/v1_ptree.c:ln_v1_normalizeRec", "src/v1_ptree.c:ln_addFDescrToPTree", "src/v1_ptree.c:ln_buildPTree"]}
{"id": "C70", "title": "v1 rulebases: failure report", "statement": "A message that fails is reported with originalmsg = the message and unparsed-data = an end piece of it, where the part before is what the beginning of some rule takes; everything else in the object is as the caller supplied it (nothing of partial matches remains).", "quantifier": "every file content, every message without NUL", "why_tests_cant": "The claim is about every rulebase of the old format and every message; tests load a few rulebases.", "anchors": ["src/v1_ptree.c:addUnparsedField", "src/v1_ptree.c:ln_v1_normalize"]}
{"id": "C71", "title": "v1 rulebases: an answer for every message", "statement": "Normalizing with such a rulebase always returns, without undefined behaviour, on messages without NUL unless a field is exposed to one of the listed hazards; with complete fields, on all harmless messages.", "quantifier": "every file content, every message", "why_tests_cant": "The claim is about every rulebase of the old format and every message; tests load a few rulebases.", "anchors": ["src/v1_ptree.c:ln_v1_normalizeRec", "src/v1_parser.c"]}
{"id": "C72", "title": "v1 rulebases: state of the context", "statement": "Normalizing changes nothing in the context; loading a second v1 file gives the same context as loading it alone (with the prefix and annotations in force), the rules of the first are discarded; a file of the other version is refused and changes no answer.", "quantifier": "every context, every file, every message", "why_tests_cant": "The claim is about every sequence of calls, of any length; tests run a few fixed sequences.", "anchors": ["src/samp.c:ln_sampLoad", "src/samp.c:doOldCruft", "src/pdag.c:ln_normalize"]}
{"id": "C73", "title": "v1 field types: positions and hazards", "statement": "A v1 field type never reads outside the message, shows undefined behaviour only in the listed cases (missing or overlong extra data, ten digits in a row in dates without wrapping ints, NUL in string-to, asserts and trailing backslash in cef), ends inside the message and not before its start (except cee-syslog, cef and checkpoint-lea), and matches nothing at the end of the message (except char-sep, name-value-list, checkpoint-lea and rest).", "quantifier": "every message, position and field description", "why_tests_cant": "The claim is about every byte string of every length; tests only sample a few log lines.", "anchors": ["src/v1_parser.c"]}
{"id": "C74", "title": "v1 field types: texts and values", "statement": "A field of a v1 rulebase matches exactly the texts of its type's grammar (dates, number, float, hexnumber, kernel-timestamp, whitespace, ipv4, ipv6, word, alpha, rest, date-iso, time-24hr, time-12hr, duration, mac48, string-to, char-to, char-sep, quoted and op-quoted strings, json, cee-syslog, v2-iptables, name-value-list, cisco-interface-spec, checkpoint-lea), takes the longest such text, and delivers the text taken, or the parts of it the type documents; for cef the header is the documented one and well-formed extensions behind one blank are delivered. (cef and checkpoint-lea continue at a position further left; cisco-interface-spec at the end of the message delivers the text instead of the parts.)", "quantifier": "every message without NUL (dates: without ten digits in a row) and every position", "why_tests_cant": "The claim is about every byte string of every length; tests only sample a few log lines.", "anchors": ["src/v1_parser.c:PARSER(Number)", "src/v1_parser.c:PARSER(StringTo)", "src/v1_parser.c:PARSER(CharTo)", "src/v1_parser.c:PARSER(CiscoInterfaceSpec)", "src/v1_parser.c:PARSER(NameValue)", "src/v1_parser.c:PARSER(CEF)", "src/v1_parser.c:PARSER(CheckpointLEA)"]}
{"id": "C75", "title": "v1 lists (tokenized)", "statement": "A field tokenized:SEPARATOR:TYPE of a v1 rulebase takes the items of TYPE separated by SEPARATOR at its position, as many as there are (a separator at the very end of the message belongs to the list, one that no item follows does not), and delivers the array of their values; it fails iff there is no first item, and is the empty array at the end of the message. With TYPE recursive or descent the items are the events that the rules of the same or of the named rulebase make of the text, without their remaining field.", "quantifier": "every separator that is not empty, every type, every message without NUL and every position", "why_tests_cant": "The claim is about every rulebase of the old format and every message; tests load a few rulebases.", "anchors": ["src/v1_parser.c:PARSER(Tokenized)", "src/v1_parser.c:tokenized_parser_data_constructor", "src/v1_parser.c:generate_context_with_field_as_prefix"]}
{"id": "C76", "title": "v1 interpretation of values", "statement": "A field interpret:AS:TYPE takes what TYPE takes and delivers the text it delivers as an integer (base 10 or 16, clamped to 64 bits), double or boolean; where TYPE does not match it takes the empty text.", "quantifier": "every type, every text it delivers, every message without NUL and every position", "why_tests_cant": "The claim is about every rulebase of the old format and every message; tests load a few rulebases.", "anchors": ["src/v1_parser.c:PARSER(Interpret)", "src/v1_parser.c:interpret_parser_data_constructor", "src/v1_parser.c:reinterpret_value"]}
{"id": "C77", "title": "v1 suffixes", "statement": "A field suffixed or named_suffixed takes what its TYPE takes and the first suffix of its list that follows, and delivers the object of both under the documented or given names; if there is no such suffix (or no content) it takes the empty text.", "quantifier": "every list of suffixes, every type, every message without NUL and every position", "why_tests_cant": "The claim is about every rulebase of the old format and every message; tests load a few rulebases.", "anchors": ["src/v1_parser.c:PARSER(Suffixed)", "src/v1_parser.c:_suffixed_parser_data_constructor", "src/v1_parser.c:named_suffixed_parser_data_constructor"]}
{"id": "C78", "title": "v1 rules inside rules", "statement": "A field recursive (descent) normalizes the rest of the message with the rules of its own rulebase (of the named file, as an application that loads it would), delivers the event without its remaining field, and takes the text but for what the remaining field holds; if no rule matches it takes the empty text, and undefined behaviour of the inner normalization is the only undefined behaviour.", "quantifier": "every rulebase, every named file, every message and position", "why_tests_cant": "The claim is about every rulebase of the old format and every message; tests load a few rulebases.", "anchors": ["src/v1_parser.c:PARSER(Recursive)", "src/v1_parser.c:recursive_parser_data_constructor", "src/v1_parser.c:descent_parser_data_constructor", "src/v1_liblognorm.c:ln_v1_inherittedCtx"]}
{"id": "C79", "title": "One rule, repeat and user-defined types", "statement": "A rulebase text or file with one rule, and one rule for each of its user-defined types, is accepted, and every message without NUL byte is answered as documented: it matches iff the literals, fields, repeats (items separated by the while part; permitMismatchInParser goes back to before the last separator) and user-defined types take it from its beginning to its end; the outcome is unique; the event holds exactly the values, names and nesting that follow from it, plus the tags. If every while part takes something and names nothing, every harmless message gets its answer.", "quantifier": "every such rulebase text (any nesting, any number of types), every message without NUL byte, every initial object", "why_tests_cant": "The claim quantifies over every rulebase (every graph shape) and every message at once; no finite set of rulebases covers it.", "anchors": ["src/samp.c:processType", "src/samp.c:processRule", "src/pdag.c:ln_pdagAddParser", "src/pdag.c:tryParser", "src/pdag.c:ln_normalizeRec", "src/parser.c:ln_constructRepeat", "src/parser.c:PARSER_Parse(Repeat)"]}
{"id": "C80", "title": "Many rules and user-defined types", "statement": "A rulebase text or file with up to 255 rules, prefixes and rules of user-defined types (any number for each type, types using each other or themselves) is accepted. For every message without NUL byte: a success has a rule whose fields take the message from its beginning to its end (a type takes what one of its rules takes, and the next field starts at or behind its end), the event holds exactly the values of that rule plus the tags of a rule that takes the message; a rule of built-in types that takes the message is never overlooked; a failure reports the message and a rest of it. If a type uses a type only behind a field that takes a byte, or only types of smaller rank, every harmless message gets its answer.", "quantifier": "every such rulebase text, every message without NUL byte, every initial object", "why_tests_cant": "The claim quantifies over every rulebase (every graph shape) and every message at once; no finite set of rulebases covers it.", "anchors": ["src/samp.c:processType", "src/samp.c:processRule", "src/pdag.c:ln_pdagFindType", "src/pdag.c:tryParser", "src/pdag.c:ln_normalizeRec", "src/pdag.c:ln_pdagOptimize"]}
{"id": "C81", "title": "Faults of a rulebase are reported", "statement": "A rule line with tags and ':' and a type line with ':' that is processed has one of three outcomes: at least one error message, a field description without a name, or a rule of the rulebase with its tags, this file and this line number. A load that fails has issued a message. The messages of a text or file are those of its lines in order; without include lines each carries the loaded file's name and the number of one of its lines. A rulebase of rules, prefixes and declared user-defined types written with the plain field descriptions %NAME:TYPE% and %NAME:TYPE:EXTRADATA% loads without any message.", "quantifier": "every line, text and file, every context, every outcome of the JSON reader", "why_tests_cant": "The claim quantifies over every rulebase (every graph shape) and every message at once; no finite set of rulebases covers it.", "anchors": ["src/lognorm.c:ln_errprintf", "src/samp.c:processRule", "src/samp.c:processType", "src/samp.c:getTypeName", "src/samp.c:addFieldDescr", "src/samp.c:processAnnotate", "src/samp.c:ln_sampReadLine", "src/samp.c:ln_sampLoad", "src/pdag.c:ln_newParser", "src/pdag.c:ln_pdagAddParserInternal", "src/parser.c:ln_constructString", "src/parser.c:ln_constructRepeat"]}
{"id": "C82", "title": "Delivery of error messages", "statement": "The error callback is called for a message if and only if one is registered. A message of ordinary length (below 8 KiB in all) arrives complete: 'rulebase file FILE[LINE]: TEXT', followed by ': ' and the reason if there is one, with exactly its length; from the number the line can be read back. No text handed over is longer than 9215 bytes, whatever the message.", "quantifier": "every message, file name, line number and reason, every sequence of registrations", "why_tests_cant": "The claim is about every byte string of every length; tests only sample a few log lines.", "anchors": ["src/lognorm.c:ln_errprintf", "src/liblognorm.c:ln_setErrMsgCB", "src/liblognorm.c:ln_setDebugCB"]}
{"id": "C83", "title": "DOT graph of a rulebase", "statement": "For every rulebase the DOT file is well-formed: it can be read back, and contains, once each, exactly the nodes that can be reached from the root, with reference counts and marked if they have no fields, and all their fields with type, literal text (without quotes and backslashes) and both ends. The DOT file of the use (statistics) contains in the same way exactly the nodes that the normalizer has been to, with their counters.", "quantifier": "every context a history of loads and normalizations can produce whose fields all have their data, every state of the visited flags, every spelling of pointers in letters and digits", "why_tests_cant": "The claim is about every sequence of calls, of any length; tests run a few fixed sequences.", "anchors": ["src/pdag.c:ln_genDotPDAGGraph", "src/pdag.c:ln_genDotPDAGGraphRec", "src/pdag.c:ln_fullPDagStatsDOT", "src/pdag.c:ln_genStatsDotPDAGGraphRec", "src/pdag.c:ln_pdagClearVisited"]}
{"id": "C84", "title": "Statistics of a rulebase", "statement": "ln_fullPdagStats reports for each user-defined type and for the main graph the number of its nodes, terminal nodes and fields, the fields of each built-in type, the largest number of fields of a node and for every number below 100 how many nodes have that many, counting each node once, and the number of nodes on a path from the root, which is the longest one if no node can be reached in two ways.", "quantifier": "every context a history can produce in which no reachable node is flagged as visited (as after a load)", "why_tests_cant": "The claim is about every sequence of calls, of any length; tests run a few fixed sequences.", "anchors": ["src/pdag.c:ln_fullPdagStats", "src/pdag.c:ln_pdagStats", "src/pdag.c:ln_pdagStatsRec"]}
{"id": "C85", "title": "Identifiers and usage report", "statement": "When nothing is shared in the rulebase (for instance if every node is referred to once), the identifier that loading gives to a node consists of the literals and field descriptions on the way to it, in order; and the extended statistics contain for each component exactly one line for each way along used nodes, with the two counters of the node and its identifier, and leave no node flagged.", "quantifier": "every context a history can produce whose fields all have their data and in which the components are trees without common nodes", "why_tests_cant": "The claim is about every sequence of calls, of any length; tests run a few fixed sequences.", "anchors": ["src/pdag.c:ln_pdagComponentSetIDs", "src/pdag.c:fixComponentID", "src/pdag.c:ln_pdagOptimize", "src/pdag.c:ln_pdagStatsExtended", "src/pdag.c:ln_fullPdagStats"]}
{"id": "C86", "title": "What can go wrong with a message", "statement": "After any history of successful or failed loads and of normalizations, normalizing any message either returns or misbehaves for one of the listed reasons, and with the listed fault: a recursion that does not end, a hazardous field type on a text that exposes it (C09, C10), a cee-syslog field and '@cee:' inside the message, a repeat whose separator stores a field, an annotation with an empty name or value, or the add-rule option and an empty rule. Freed memory, nodes, types or file names that do not exist are never accessed. Without these causes a harmless message is normalized or the recursion does not end.", "quantifier": "every history of loads and normalizations, every message, every initial object", "why_tests_cant": "The claim is about every sequence of calls, of any length; tests run a few fixed sequences.", "anchors": ["src/pdag.c:ln_normalize", "src/pdag.c:ln_normalizeRec", "src/pdag.c:tryParser", "src/pdag.c:fixJSON", "src/pdag.c:addRuleMetadata", "src/annot.c:ln_annotate", "src/parser.c:PARSER_Parse(Repeat)", "src/parser.c:PARSER_Parse(CEESyslog)"]}
{"id": "C87", "title": "What can go wrong with a rulebase", "statement": "Loading any bytes, as text or file and after any history, returns (successfully or not) unless the rulebase contains one of the listed traps, and then misbehaves only in the way listed for it: extendprefix without prefix, include without a file name, an empty tag before a comma, a '%' with nothing behind it or JSON parameters at the very end of a rule, a field description with null, without type, with an empty array, a literal without text, an odd matching.permitted, or an annotate line that ends in white space (which is read forever); include lines that nest without end exhaust every stack. Rules of literals and of fields written as %name:type% or %name:type:extra data% (no literal fields) are never at fault: apart from the traps of include, extendprefix and annotate lines and of empty tags such a rulebase is always loaded. In particular every rulebase of comments, prefix lines, rules and types of this kind is loaded, as text and as file. Conversely, behind such lines an extendprefix line without a prefix, an include line without a name, an empty tag and white space behind the annotations of a line are always fatal, whatever lines follow. Texts without fields, commas, include, extendprefix and annotate lines are always loaded.", "quantifier": "every string of bytes, every set of files, every context a history can produce whose literals have their text (as after every load without a trap), every outcome of the JSON reader", "why_tests_cant": "The claim quantifies over every rulebase (every graph shape) and every message at once; no finite set of rulebases covers it.", "anchors": ["src/samp.c:ln_sampRead", "src/samp.c:ln_processSamp", "src/samp.c:processRule", "src/samp.c:processTags", "src/samp.c:processType", "src/samp.c:processAnnotate", "src/samp.c:processInclude", "src/samp.c:extendPrefix", "src/samp.c:addFieldDescr", "src/samp.c:ln_parseLegacyFieldDescr", "src/pdag.c:ln_newParser", "src/pdag.c:ln_pdagAddParserInternal", "src/pdag.c:ln_pdagOptimize", "src/parser.c:ln_constructString", "src/parser.c:ln_constructRepeat"]}
{"id": "C88", "title": "Mistakes in a field description are reported", "statement": "A field description with a listed mistake - no or an unknown type, a missing member, a value outside of the documented choices, a character parameter that is not one character, an unknown member of a type that checks its members, an unknown character class, an alternative without its fields, the name '.' among several repeated fields - at any depth inside arrays, alternatives and repeats, makes the library report an error. In a rulebase text or file of rules, types, prefixes and idle lines the report carries the file's name and the number of the line with the mistake, wherever the line stands. Conversely a description without null values and repeated keys is reported only if it contains a listed mistake, a string or repeat named '-', an alternative among other fields, or a maxval that is no number.", "quantifier": "every field description, every context, every rulebase of that form, every outcome of the JSON reader", "why_tests_cant": "The claim quantifies over every rulebase (every graph shape) and every message at once; no finite set of rulebases covers it.", "anchors": ["src/pdag.c:ln_newParser", "src/pdag.c:ln_pdagAddParserInternal", "src/parser.c:ln_constructNumber", "src/parser.c:ln_constructFloat", "src/parser.c:ln_constructHexNumber", "src/parser.c:ln_constructRFC5424Date", "src/parser.c:ln_constructRFC3164Date", "src/parser.c:ln_constructString", "src/parser.c:stringProcessQMODE", "src/parser.c:ln_constructNameValue", "src/parser.c:ln_constructCheckpointLEA", "src/parser.c:ln_constructRepeat", "src/parser.c:chkNoDupeDotInParserDefs", "src/parser.c:ln_constructLiteral", "src/parser.c:ln_constructCharTo"]}
{"id": "C89", "title": "A rulebase about which nothing was reported", "statement": "If none of the loads of a context has made an error message, every field of its rulebases has the data its type needs; so the DOT graphs are well-formed, the next load misbehaves only because of the traps in its own text, and normalizing a message never reads the missing data of a field.", "quantifier": "every history of loads (successful or not) without error messages and of normalizations, every message", "why_tests_cant": "The claim is about every sequence of calls, of any length; tests run a few fixed sequences.", "anchors": ["src/pdag.c:ln_newParser", "src/pdag.c:ln_pdagAddParserInstance", "src/pdag.c:ln_pdagOptimize", "src/parser.c:ln_constructLiteral", "src/parser.c:ln_constructCharTo", "src/parser.c:ln_constructString", "src/parser.c:ln_constructNameValue", "src/parser.c:ln_constructRepeat", "src/lognorm.c:ln_errprintf"]}
{"id": "C90", "title": "lognormalizer: statistics and pictures", "statement": "With -s, -S and -x the tool prints what it prints without them and then what was asked for (to the file named, or to the standard output), with the same exit code and messages of its own, and if loading reported nothing it does not crash where it would not crash without them. The report and the picture describe the loaded rulebase, with the use that each line of the input alone makes of it added up (modulo 2^32). With -d the picture of the loaded rulebase, one that can be read back, is all that is output, whatever the input, and the exit code is 1; in any other case exit code 1 means that nothing is printed or written.", "quantifier": "every sequence of options (other than -v), every rulebase and input, every set of files that can be opened", "why_tests_cant": "The claim is about every input stream and every combination of options; tests run a few files.", "anchors": ["src/lognormalizer.c:main", "src/lognormalizer.c:genDOT", "src/pdag.c:ln_fullPdagStats", "src/pdag.c:ln_fullPDagStatsDOT", "src/pdag.c:ln_genDotPDAGGraph"]}
{"id": "C91", "title": "v1 rulebases: iptables", "statement": "A version 1 rule that ends in a field of type iptables recognises every message that begins with the rule's text and has at least one byte more; the event then has a member for every name=value pair and every name alone (value [*PRESENT*]) of the rest of the message, divided by blanks, of pairs with the same name the last one, and nothing under the field's own name. Every text has exactly one such sequence of pairs.", "quantifier": "every well-formed v1 file with iptables and rest only at the end of rules, every message without NUL bytes", "why_tests_cant": "The claim is about every rulebase of the old format and every message; tests load a few rulebases.", "anchors": ["src/v1_ptree.c:ln_iptablesParser", "src/v1_ptree.c:ln_v1_normalizeRec"]}
{"id": "C92", "title": "Concurrent calls on one context", "statement": "When any number of threads call ln_normalize on one context (a version 2 rulebase without annotations) at the same time, every call returns exactly what it would return alone, success and event, crashes only if it would crash alone, and finishes after a number of its own steps that does not depend on the others. The rules stay as they are. If increments of the usage counters are atomic, the context afterwards is the one that the same calls leave when made one after another.", "quantifier": "every context without annotations, every list of messages and objects, every schedule (interleaving of single accesses to the context)", "why_tests_cant": "The claim is about every interleaving of the steps of any number of threads; a test run sees one of them.", "anchors": ["src/pdag.c:ln_normalize", "src/pdag.c:ln_normalizeRec", "src/pdag.c:tryParser", "src/parser.c:PARSER_Parse(Repeat)", "src/pdag.h:struct ln_pdag"]}
{"id": "C93", "title": "No JSON object is leaked or misused", "statement": "Whatever the rulebase and the message, ln_normalize never uses or gives up a JSON object that has been freed, and afterwards the reference count of every object is the number of references to it. If no field has a user-defined type and no parser part of a repeat has two fields named '.' one behind the other, nothing is leaked: after any number of calls, successful or not, whose events the application has given up, the memory holds exactly the objects it held before, with the same contents and counts - including the tags of the rules, which events share with the rulebase.", "quantifier": "every field graph (cyclic or not), every message, every number of calls, every heap in which counts are exact and no object contains itself (as after loading)", "why_tests_cant": "A leak checker sees the objects of one run; the claim is about every rulebase, message and number of calls.", "anchors": ["src/pdag.c:ln_normalize", "src/pdag.c:ln_normalizeRec", "src/pdag.c:tryParser", "src/pdag.c:fixJSON", "src/pdag.c:addRuleMetadata", "src/annot.c:ln_annotate", "src/parser.c:PARSER_Parse(Repeat)"]}
{"id": "C94", "title": "Every event is a value of its own", "statement": "Although an event shares parts with the values of its fields and with the tags of the rules, and parts are replaced and freed while it is built, what an application reads from it after ln_normalize is exactly what the rule says (the event of a call in which nothing is shared); no other object that the application holds, such as the event of an earlier message or the tags of the rules, changes. An application that handles one message after the other and gives up each event reads the same answers and events as if every call were the first.", "quantifier": "every rulebase, every message, every event passed in, every heap in which counts are exact (as after loading), every sequence of messages", "why_tests_cant": "A leak checker sees the objects of one run; the claim is about every rulebase, message and number of calls.", "anchors": ["src/pdag.c:ln_normalize", "src/pdag.c:ln_normalizeRec", "src/pdag.c:tryParser", "src/pdag.c:fixJSON", "src/pdag.c:addRuleMetadata", "src/annot.c:ln_annotate", "src/parser.c:PARSER_Parse(Repeat)"]}
{"id": "C95", "title": "What can go wrong while loading a rulebase of the old kind", "statement": "Loading a file without the version=2 line misbehaves in exactly four cases: extendprefix while there is no prefix, an empty tag before a comma, a rule that (with the prefix) ends inside of the name of a field, and an annotation whose complete additions are followed by blanks at the end of the line (the load never ends). Which of them, is decided by the first such line. In every other case loading ends and reports success, whatever else the lines say; in particular files without '%', ',', extendprefix and annotate always load.", "quantifier": "every v1 file, any prefix left in force by earlier files", "why_tests_cant": "the parts of a line that matter can stand anywhere in files of any length, and the prefix in force depends on all lines and files before", "anchors": ["src/v1_liblognorm.c:ln_v1_loadSamples", "src/v1_samp.c:ln_v1_sampRead", "src/v1_samp.c:ln_v1_processSamp", "src/v1_samp.c:processTags", "src/v1_samp.c:extendPrefix", "src/v1_samp.c:getAnnotationOp", "src/v1_samp.c:ln_v1_parseFieldDescr", "src/v1_samp.c:addSampToTree"]}

{
 "claims": [
  {
   "property": "C01",
   "status": "proved",
   "theorems": [
    "C01_pg_string_array_roundtrip",
    "C01_json_string_slice_roundtrip",
    "C01_nil_is_null",
    "C01_string_array_source"
   ],
   "note": "Both encodings, both source representations, nil/NULL."
  },
  {
   "property": "C02",
   "status": "proved",
   "theorems": [
    "C02_bytea_array_roundtrip",
    "C02_nil_is_null",
    "C02_bytea_array_source"
   ],
   "note": "Hex format written by Value; the legacy escape format is only read. Which texts are read, and as what, for both formats of bytea: C02_bytea_array_source."
  },
  {
   "property": "C03",
   "status": "proved",
   "theorems": [
    "C03_pg_int_array_roundtrip",
    "C03_json_int_slice_roundtrip",
    "C03_nil_is_null"
   ],
   "note": "All widths up to 64, both encodings."
  },
  {
   "property": "C04",
   "status": "partial",
   "theorems": [
    "C04_json_uint_slice_roundtrip",
    "C04_pg_uint_array_roundtrip_partial",
    "C04_pg_uint64_array_refuted",
    "C04_nil_is_null"
   ],
   "note": "Holds for the JSON-style types and for PostgreSQL values below 2^63. Refuted for PostgreSQL uint64 values from 2^63 on: uint_array.go reads through ParseInt."
  },
  {
   "property": "C05",
   "status": "proved",
   "theorems": [
    "C05_bool_array_roundtrip",
    "C05_nil_is_null",
    "C05_bool_array_only_t_f"
   ],
   "note": "Round trip plus rejection of anything else."
  },
  {
   "property": "C06",
   "status": "partial",
   "theorems": [
    "C06_int64_exact",
    "C06_int64_source",
    "C06_json_uint_source",
    "C06_json_uint_exact",
    "C06_narrow_int_exact_partial",
    "C06_narrow_int_refuted"
   ],
   "note": "Exact for 64-bit signed and for all JSON-style unsigned types. Refuted for narrow signed types and PostgreSQL unsigned types: T(n) truncates silently. For 64-bit signed and JSON unsigned types the accepted texts are characterised exactly."
  },
  {
   "property": "C07",
   "status": "proved",
   "theorems": [
    "C07_array_scan_never_panics"
   ],
   "note": "Every array type, every source."
  },
  {
   "property": "C08",
   "status": "proved",
   "theorems": [
    "C08_failed_scan_keeps_destination"
   ],
   "note": "Every array type, every source."
  },
  {
   "property": "C09",
   "status": "partial",
   "theorems": [
    "C09_int_slices_json",
    "C09_uint_slices_json",
    "C09_string_slices_json_partial",
    "C09_string_slices_json_refuted",
    "C09_bool_slices_json_refuted"
   ],
   "note": "Integer and unsigned slices are JSON and denote the list. String slices are JSON when no string has a control character; refuted with one. Non-empty bool slices are never JSON ([t,f])."
  },
  {
   "property": "C10",
   "status": "proved",
   "theorems": [
    "C10_quote_faithful",
    "C10_quote_injective"
   ],
   "note": "Holds whenever the following text does not start with a quote (SQL string syntax itself merges two adjacent quotes)."
  },
  {
   "property": "C11",
   "status": "partial",
   "theorems": [
    "C11_text_source_exact",
    "C11_int64_source_exact_partial",
    "C11_int64_source_refuted"
   ],
   "note": "Text sources are exact. int64 sources are exact only in range; every out-of-range int64 is silently changed."
  },
  {
   "property": "C12",
   "status": "partial",
   "theorems": [
    "C12_byte_array_partial",
    "C12_byte_array_refuted"
   ],
   "note": "Holds for sources of full length or when the array was zero; stale tail otherwise (refuted)."
  },
  {
   "property": "C13",
   "status": "partial",
   "theorems": [
    "C13_rune_array_partial",
    "C13_rune_array_null_refuted",
    "C13_rune_array_string_refuted"
   ],
   "note": "Holds for []byte sources into a zero array or of full length. Refuted: NULL leaves old content, string sources store bytes instead of code points."
  },
  {
   "property": "C14",
   "status": "partial",
   "theorems": [
    "C14_bool_column",
    "C14_sqltype_bool_refuted",
    "C14_catalog_text_partial"
   ],
   "note": "Holds for the column scanner. The generator's internal Bool type reads yes and no in any case and the texts of ParseBool, and refuses the rest (C14_catalog_text_partial). The generator's internal Bool type inverts integers (refuted)."
  },
  {
   "property": "C15",
   "status": "partial",
   "theorems": [
    "C15_marshal_numbers_and_bools",
    "C15_marshal_strings_partial",
    "C15_marshal_strings_refuted"
   ],
   "note": "Numbers and booleans: full. Strings: for characters strconv.Quote escapes the JSON way; refuted for BEL, NUL, invalid UTF-8."
  },
  {
   "property": "C16",
   "status": "proved",
   "theorems": [
    "C16_alignment",
    "C16_alignment_of_tables"
   ],
   "note": "From the declarations of the struct through the parser to the generated lists; the text of the Go literals is read back. Order of the columns relative to the declarations is C41."
  },
  {
   "property": "C17",
   "status": "proved",
   "theorems": [
    "C17_insert_one",
    "C17_insert_one_of_tables",
    "C17_insert_one_of_tables_exists"
   ],
   "note": "From the declarations of the struct to the statement as the database reads it. PostgreSQL returns the columns in the order of the scan destinations."
  },
  {
   "property": "C18",
   "status": "proved",
   "theorems": [
    "C18_placeholders",
    "C18_numbers"
   ],
   "note": "All row counts, all dialects."
  },
  {
   "property": "C19",
   "status": "partial",
   "theorems": [
    "C19_find_by_pk_partial",
    "C19_find_by_pk_exists",
    "C19_other_keys_refuted",
    "C19_wrapped_key_refuted"
   ],
   "note": "Missing: extra keys beside an auto-increment key are not compared, a wrapped key is compared without its wrapper (both refuted)."
  },
  {
   "property": "C20",
   "status": "partial",
   "theorems": [
    "C20_update_by_pk_partial",
    "C20_update_by_pk_refuted"
   ],
   "note": "Refuted for PostgreSQL single keys: the key's placeholder number is off."
  },
  {
   "property": "C21",
   "status": "proved",
   "theorems": [
    "C21_update_columns",
    "C21_update_columns_of_tables"
   ],
   "note": "From the declarations of the struct to the assignments as the database reads them."
  },
  {
   "property": "C22",
   "status": "partial",
   "theorems": [
    "C22_single_key",
    "C22_composite_key_partial",
    "C22_composite_key_refuted"
   ],
   "note": "Single key: always. Composite key: with identifier quoting off; refuted with quoting on."
  },
  {
   "property": "C23",
   "status": "partial",
   "theorems": [
    "C23_literal_exact_partial",
    "C23_non_ascii_refuted"
   ],
   "note": "Exact characterisation: faithful iff every character is in the class literal_char. Refuted for non-ASCII text."
  },
  {
   "property": "C24",
   "status": "partial",
   "theorems": [
    "C24_identifier_partial",
    "C24_quote_char_refuted",
    "C24_backslash_refuted"
   ],
   "note": "Names without quote character, backslash or unprintable character. Refuted outside."
  },
  {
   "property": "C25",
   "status": "partial",
   "theorems": [
    "C25_bulk_insert_partial",
    "C25_insert_one_partial",
    "C25_generated_partial",
    "C25_generated_refuted",
    "C25_own_insert"
   ],
   "note": "Rows, columns and values read back from the bulk statement for models with a value per column. Refuted for every generated table with an auto-increment or read-only column: each non-empty Insert is rejected or panics."
  },
  {
   "property": "C26",
   "status": "partial",
   "theorems": [
    "C26_upsert_pg_partial",
    "C26_upsert_one_pg_partial",
    "C26_upsert_one_mysql_composite_partial",
    "C26_upsert_one_mysql_composite_refuted",
    "C26_upsert_mysql_auto_refuted",
    "C26_upsert_sqlite_refuted",
    "C26_generated_pg_partial",
    "C26_generated_pg_refuted",
    "C26_generated_mysql_partial",
    "C26_generated_mysql_refuted"
   ],
   "note": "Binding read back for PostgreSQL and MySQL when Values() lists every column. Refuted: tables with auto-increment or read-only columns, MySQL UpsertOne with a composite key (panic), MySQL Upsert with an auto key, every SQLite upsert."
  },
  {
   "property": "C27",
   "status": "partial",
   "theorems": [
    "C27_upsert_pg_partial",
    "C27_upsert_one_pg_partial",
    "C27_upsert_pg_empty_refuted",
    "C27_upsert_one_mysql_partial",
    "C27_upsert_mysql_partial",
    "C27_upsert_one_mysql_empty_refuted",
    "C27_generated_pg_partial",
    "C27_generated_one_pg_partial",
    "C27_generated_pg_composite_refuted",
    "C27_generated_mysql_partial",
    "C27_generated_one_mysql_partial"
   ],
   "note": "Update list is exactly the non-key, non-omitted columns for single keys and unquoted composite keys. Refuted: empty list is a syntax error; PostgreSQL composite keys with quoted identifiers are assigned too."
  },
  {
   "property": "C28",
   "status": "partial",
   "theorems": [
    "C28_single_key_refuted",
    "C28_composite_key_refuted",
    "C28_composite_of_one_partial",
    "C28_own_statement"
   ],
   "note": "Refuted for every model with a value per column except a one-column composite key on PostgreSQL."
  },
  {
   "property": "C29",
   "status": "partial",
   "theorems": [
    "C29_find_partial",
    "C29_delete_partial",
    "C29_lock_partial",
    "C29_lock_sqlite_refuted",
    "C29_generated_partial",
    "C29_composite_words_refuted",
    "C29_own_statements"
   ],
   "note": "Find, delete and lock read back with the key equality. Refuted: locks on SQLite, composite keys named by reserved words."
  },
  {
   "property": "C30",
   "status": "partial",
   "theorems": [
    "C30_conditions_partial",
    "C30_empty_group_refuted",
    "C30_panics"
   ],
   "note": "Every condition without an empty And, Or, In or NotIn reads back as composed on all dialects. Refuted for empty groups: a panic (empty In, MySQL/SQLite) or a text that is no condition."
  },
  {
   "property": "C31",
   "status": "partial",
   "theorems": [
    "C31_history_partial",
    "C31_empty_vars_refuted"
   ],
   "note": "All histories of Var, Vars, Write and Reset. Refuted only for Vars without values on MySQL/SQLite, which panics."
  },
  {
   "property": "C32",
   "status": "partial",
   "theorems": [
    "C32_query_partial",
    "C32_query_one_partial",
    "C32_no_table",
    "C32_offset_refuted",
    "C32_empty_group_refuted",
    "C32_update_partial",
    "C32_delete_partial",
    "C32_order_refuted",
    "C32_no_set_refuted",
    "C32_table_ignored_refuted"
   ],
   "note": "QueryStmt, QueryOneStmt, ExecStmt read back completely. Refuted: OFFSET without LIMIT (MySQL, SQLite), ORDER BY in UPDATE/DELETE (PostgreSQL), UPDATE without assignments, empty groups, and the given table ignored when the model names one."
  },
  {
   "property": "C33",
   "status": "partial",
   "theorems": [
    "C33_format_partial",
    "C33_plain",
    "C33_mark_refuted",
    "C33_literals_partial",
    "C33_quotes_refuted",
    "C33_other_refuted"
   ],
   "note": "Proved for texts whose fixed pieces do not contain the placeholder mark, with the literals of the values. Refuted otherwise (panic), for values that are no basic kind (panic), and for the quoting of strings on SQLite and times on PostgreSQL."
  },
  {
   "property": "C34",
   "status": "partial",
   "theorems": [
    "C34_acquired",
    "C34_exclusive",
    "C34_obtained",
    "C34_double_release_refuted",
    "C34_sql_columns",
    "C34_sql_columns_refuted"
   ],
   "note": "Proved for every interleaving of users that touch only what they hold; what was obtained stays unchanged even without that discipline. Refuted for the generator, which releases a builder twice: the list of SQL columns generated for a later table is then empty."
  },
  {
   "property": "C35",
   "status": "partial",
   "theorems": [
    "C35_next_partial",
    "C35_no_cursor_refuted",
    "C35_lost_cursor_refuted",
    "C35_ordering_refuted",
    "C35_composite_refuted",
    "C35_condition_refuted",
    "C35_condition_cursor_refuted",
    "C35_limit_refuted",
    "C35_generated_partial"
   ],
   "note": "Proved from a cursor, without condition or ordering, for any database that answers by the semantics of SpecDb.v, any table with a comparable unique key and any page size below 65535; also stated for generated models with either find statement. Refuted: no cursor, a cursor whose row is gone, any ordering, a composite key outside PostgreSQL, a condition (second page fails; with a cursor the first), page size 65535 (one empty page)."
  },
  {
   "property": "C36",
   "status": "partial",
   "theorems": [
    "C36_prev_partial",
    "C36_no_cursor_refuted",
    "C36_lost_cursor_refuted",
    "C36_ordering_refuted",
    "C36_composite_refuted",
    "C36_condition_refuted",
    "C36_condition_cursor_refuted",
    "C36_limit_refuted",
    "C36_generated_partial"
   ],
   "note": "Backwards. Proved from a cursor, without condition or ordering, for any database that answers by the semantics of SpecDb.v, any table with a comparable unique key and any page size below 65535; also stated for generated models with either find statement. Refuted: no cursor, a cursor whose row is gone, any ordering, a composite key outside PostgreSQL, a condition (second page fails; with a cursor the first), page size 65535 (one empty page)."
  },
  {
   "property": "C37",
   "status": "partial",
   "theorems": [
    "C37_cursor_partial",
    "C37_condition_partial",
    "C37_neither_refuted",
    "C37_both_refuted",
    "C37_composite_refuted",
    "C37_order_refuted",
    "C37_limit_refuted"
   ],
   "note": "Proved with a cursor and nothing else, and with a condition and no cursor, in both directions. Refuted: with any ordering a parenthesis is never closed; with both a condition and a cursor they are not joined; with neither the condition is missing; a composite key can only be ordered by on PostgreSQL; page size 65535 asks for no rows."
  },
  {
   "property": "C38",
   "status": "partial",
   "theorems": [
    "C38_rows_partial",
    "C38_one_row_partial",
    "C38_query_refuted",
    "C38_fill_refuted",
    "C38_paging_refuted"
   ],
   "note": "Proved for the calls that read one row and for rows that cannot be converted. Refuted for every call that reads several rows (QueryStmt, Insert and Upsert on PostgreSQL, both page iterators): rows.Err is never consulted and rows.Close succeeds after Next returned false, so a stream that fails after any number of rows yields a shortened result as success. The behaviour of database/sql Rows is modelled from its documentation."
  },
  {
   "property": "C39",
   "status": "partial",
   "theorems": [
    "C39_rows_partial",
    "C39_skipped_refuted",
    "C39_generated_partial"
   ],
   "note": "Proved when the database returns one row per record in order, also stated for the generated models with the RETURNING list of the statement. Refuted with skipped records (DO NOTHING): the row of a record lands in an earlier record as soon as one before it was skipped."
  },
  {
   "property": "C40",
   "status": "proved",
   "theorems": [
    "C40_empty_batch",
    "C40_only_empty"
   ],
   "note": "Empty batches leave any database state unchanged and report zero rows; non-empty batches are never dropped."
  },
  {
   "property": "C41",
   "status": "partial",
   "theorems": [
    "C41_order_partial",
    "C41_grouped_refuted",
    "C41_nested_refuted"
   ],
   "note": "Proved for structs in which only the last declaration has several names and at most two levels of embedding, for any sorting algorithm; refuted for grouped names (A, B, C T; D T) and for deeper embedding (index slices share memory)."
  },
  {
   "property": "C42",
   "status": "partial",
   "theorems": [
    "C42_excluded_partial",
    "C42_embedded_refuted"
   ],
   "note": "Every column comes from an exported field not tagged -, and each such field has its column, for all shapes; refuted for fields inside an embedded struct that is itself tagged -."
  },
  {
   "property": "C43",
   "status": "proved",
   "theorems": [
    "C43_accepted",
    "C43_exactly"
   ],
   "note": "Proved for all shapes, with an exact characterisation of what is accepted."
  },
  {
   "property": "C44",
   "status": "partial",
   "theorems": [
    "C44_tag_partial",
    "C44_any_order_partial",
    "C44_unknown_partial",
    "C44_case_refuted",
    "C44_raw_literal_partial",
    "C44_interpreted_literal_refuted"
   ],
   "note": "Name before the first comma, options in any order, unknown options ignored, raw-literal tags read: proved for all texts. Refuted: options in another case, tags written as interpreted string literals."
  },
  {
   "property": "C45",
   "status": "partial",
   "theorems": [
    "C45_snake_characters_partial",
    "C45_words_partial",
    "C45_idempotent_partial",
    "C45_underscores_refuted",
    "C45_unicode_refuted",
    "C45_conventions_partial"
   ],
   "note": "For all ASCII names: only lower-case letters, digits and underscores, words kept in order, renaming twice is renaming once. Refuted: leading or repeated underscores of the name survive, non-ASCII letters are mangled. On names made of words: exactly the words joined by underscores."
  },
  {
   "property": "C46",
   "status": "partial",
   "theorems": [
    "C46_settings_partial",
    "C46_complete_partial",
    "C46_idempotent_partial",
    "C46_total_partial",
    "C46_defaults_partial",
    "C46_dropped_refuted",
    "C46_quote_refuted",
    "C46_database_refuted",
    "C46_nil_types_refuted"
   ],
   "note": "For all pairs: required settings never empty, merging twice is merging once, and the user's value or the default for every setting that is handled. Refuted: ReadOnly, OmitGetters and SourceMap are dropped; QuoteIdentifier of the file is overwritten; Database is replaced as a whole; nil DataTypes panic. The defaults themselves are stated one by one."
  },
  {
   "property": "C47",
   "status": "partial",
   "theorems": [
    "C47_distinct_partial",
    "C47_again_partial",
    "C47_imported_partial",
    "C47_own_name_refuted",
    "C47_unloaded_refuted"
   ],
   "note": "For all import sequences: distinct paths have distinct names, a path keeps its name, every loadable package is imported. Refuted: the current package's own name is not set apart; packages that fail to load keep their names and are not imported."
  },
  {
   "property": "C48",
   "status": "partial",
   "theorems": [
    "C48_deep_partial",
    "C48_deep_refuted",
    "C48_file_partial",
    "C48_folder_partial",
    "C48_subfolder_refuted",
    "C48_unclean_refuted",
    "C48_everything_partial",
    "C48_spellings_refuted",
    "C48_star_partial",
    "C48_star_refuted",
    "C48_star_elsewhere_refuted",
    "C48_panic_refuted",
    "C48_range_partial",
    "C48_reversed_refuted",
    "C48_prefix_partial",
    "C48_dash_refuted",
    "C48_question_refuted",
    "C48_relative_partial"
   ],
   "note": "File patterns select exactly the file however the path is written; folder patterns exactly the files directly in it; ./**/* exactly the Go files at any depth. Refuted: files of subfolders, paths with dots, parent directories, capital letters below **, one-letter folders with *.go, folders with a plus (panic). A star for the files of a folder selects exactly that folder's Go files when every name in the path is a letter followed by more letters, digits or - _ . (C48_star_partial); otherwise nothing, or the files of another folder (C48_star_refuted, C48_star_elsewhere_refuted). Character ranges select by the first character (C48_range_partial); reversed ranges and doubled plus signs panic (C48_reversed_refuted, C48_panic_refuted). Also: with letters, digits and underscores in front of the star exactly the Go files whose names begin with them (C48_prefix_partial), also written from the working directory, with or without the ending (C48_relative_partial); refuted with any other character there, such as a dash: nothing is selected (C48_dash_refuted). A question mark makes the character before it optional instead of standing for one (C48_question_refuted). The beginning of a name behind two stars selects such files at any depth below folders of small letters, digits, _ and - (C48_deep_partial); refuted: all files of a folder whose name begins so are selected too (C48_deep_refuted)."
  },
  {
   "property": "C49",
   "status": "partial",
   "theorems": [
    "C49_pg_up_partial",
    "C49_pg_down_partial",
    "C49_pg_nullable_refuted",
    "C49_pg_dropped_refuted",
    "C49_pg_fresh_refuted",
    "C49_pg_restore_refuted",
    "C49_pg_serial_refuted",
    "C49_pg_again_refuted",
    "C49_mysql_fresh_partial",
    "C49_mysql_down_refuted",
    "C49_mysql_existing_refuted",
    "C49_sqlite_refuted"
   ],
   "note": "Statements are trees, not text; column types are opaque texts; the primary key appears only in CREATE. Proved: PostgreSQL up/down move an existing table to the declared columns and back when no column is dropped and names and nullability keep; MySQL creates a fresh table. Refuted: dropped columns, nullability changes, fresh tables rolled back, serial changes, running twice, MySQL down and existing tables, SQLite. The generator does not call Migrate at this commit (codegen.go 254-259 is commented out)."
  },
  {
   "property": "C50",
   "status": "proved",
   "theorems": [
    "C50_lookup",
    "C50_nil",
    "C50_default"
   ],
   "note": "For all histories of registrations, taken one after the other (sync.Map)."
  },
  {
   "property": "C51",
   "status": "partial",
   "theorems": [
    "C51_addrs_partial",
    "C51_value_partial",
    "C51_column_refuted",
    "C51_column_partial"
   ],
   "note": "Addrs and the XValue getters: proved for every struct shape with distinct field names, every well-typed value and every set of columns. Refuted for the ColumnX() clauses used in predicates and Set lists: they evaluate v.A.B without a nil check and panic when a parent pointer is nil. Pointer aliasing (two fields holding the same pointer) and embedded-field promotion are not modelled. C51_column_partial says what ColumnX() gives when no parent pointer is nil."
  },
  {
   "property": "C52",
   "status": "partial",
   "theorems": [
    "C52_exact_partial",
    "C52_int_refuted",
    "C52_arrays_partial",
    "C52_sent_partial",
    "C52_sent_refuted"
   ],
   "note": "Exact list of the integer types whose column holds every value, for the three dialects and for PostgreSQL arrays; the others have a value that does not fit. Exactly which unsigned values change sign on the way to the driver. Floats, texts and times are not covered. The ranges of SQL types are from the manuals (specification)."
  },
  {
   "property": "C53",
   "status": "partial",
   "theorems": [
    "C53_insert_find_partial",
    "C53_round_trip_partial",
    "C53_update_partial"
   ],
   "note": "Proved for every table content and record, over the semantics of SpecDb.v: insert then find, update then find, and the full round trip when nothing is converted. Missing: key columns with wrappers (C19_wrapped_key_refuted shows they fail), PostgreSQL updates refuted in C20, names outside plain ASCII."
  },
  {
   "property": "C54",
   "status": "partial",
   "theorems": [
    "C54_string_fields_own_their_bytes",
    "C54_bytes_fields_refuted",
    "C54_string_source"
   ],
   "note": "String fields copy, and strings of the driver are read as they are (C54_string_source). []byte fields alias the driver's buffer (refuted)."
  },
  {
   "property": "C55",
   "status": "partial",
   "theorems": [
    "C55_mysql_json_single_partial",
    "C55_mysql_json_ints_refuted",
    "C55_mysql_json_strings_refuted"
   ],
   "note": "Refuted for all integer lists with two or more elements and for strings; holds for at most one element."
  },
  {
   "property": "C56",
   "status": "proved",
   "theorems": [
    "C56_float_arrays_roundtrip",
    "C56_float_array_source"
   ],
   "note": "strconv's float formatting/parsing contract is a hypothesis of the theorem."
  },
  {
   "property": "C57",
   "status": "proved",
   "theorems": [
    "C57_integer_fields_roundtrip"
   ],
   "note": "All widths up to 64, signed and unsigned."
  },
  {
   "property": "C58",
   "status": "partial",
   "theorems": [
    "C58_failed_scan_keeps_field_partial",
    "C58_rune_array_refuted"
   ],
   "note": "Refuted for rune arrays: runes are stored before the overflow is noticed."
  },
  {
   "property": "C59",
   "status": "partial",
   "theorems": [
    "C59_operators_refuted",
    "C59_set_refuted"
   ],
   "note": "Refuted: every operator and Set ignore the SQL value function."
  },
  {
   "property": "C60",
   "status": "partial",
   "theorems": [
    "C60_annotated_partial",
    "C60_embedded_refuted",
    "C60_grouped_refuted"
   ],
   "note": "Proved for structs without embedded structs; refuted with them (the comment of the last visited struct is read) and for comments of single types inside a type group."
  },
  {
   "property": "C61",
   "status": "partial",
   "theorems": [
    "C61_finite_partial",
    "C61_self_refuted"
   ],
   "note": "Proved for finite trees of embedded structs; refuted for a struct that embeds a pointer to itself."
  },
  {
   "property": "C62",
   "status": "partial",
   "theorems": [
    "C62_group_partial",
    "C62_lost_refuted"
   ],
   "note": "Proved for groups without exported non-struct types; refuted: whatever follows such a type in its group is lost."
  },
  {
   "property": "C63",
   "status": "partial",
   "theorems": [
    "C63_camel_characters_partial",
    "C63_camel_nonempty_partial",
    "C63_empty_refuted",
    "C63_twice_refuted",
    "C63_conventions_partial"
   ],
   "note": "For all names: only letters and digits; not empty when the name has an ASCII letter or digit. Refuted: a non-ASCII name becomes empty; camel case of A_bC changes again when renamed twice. On names made of words: exactly the words joined, each with a capital (camel case: except the first)."
  },
  {
   "property": "C64",
   "status": "partial",
   "theorems": [
    "C64_exact_partial",
    "C64_mysql_refuted",
    "C64_int64_refuted"
   ],
   "note": "Exact: PostgreSQL declares a serial type for all integers but int64, SQLite's INTEGER key is the rowid; MySQL never declares AUTO_INCREMENT."
  },
  {
   "property": "C65",
   "status": "partial",
   "theorems": [
    "C65_predefined_partial",
    "C65_slices_partial",
    "C65_arrays_partial",
    "C65_value_partial",
    "C65_pointer_partial",
    "C65_named_refuted",
    "C65_array_refuted",
    "C65_custom_refuted",
    "C65_valuer_refuted",
    "C65_dead_refuted"
   ],
   "note": "Types are a graph of nodes. Proved: types that are no pointers use the same mapping on both sides, and which one; pointers to basic types, structs and slices. Refuted: pointers to other named types and to arrays are read as JSON but written by their mapping; configured mappings are not used to read pointers; a type with only a Value method; two table entries are never reached. Generic instances and type parameters are not modelled. Every predefined type, slices of them and fixed arrays of bytes, runes and strings: C65_predefined_partial, C65_slices_partial, C65_arrays_partial."
  },
  {
   "property": "C66",
   "status": "partial",
   "theorems": [
    "C66_expression_partial",
    "C66_expression_refuted",
    "C66_stops_partial",
    "C66_self_partial",
    "C66_pair_refuted"
   ],
   "note": "Proved for every type whose definition ends and for type T []T, on the graph of types and, for the expressions of a column, on types; refuted for type A []B; type B []A, where the loop never ends."
  },
  {
   "property": "C67",
   "status": "partial",
   "theorems": [
    "C67_texts_partial",
    "C67_one_time_per_text",
    "C67_values_partial",
    "C67_zone_refuted"
   ],
   "note": "For every text: dates, dates with times, with fractions, and RFC 3339 texts are read as the time they denote, and every other text without a T in the eleventh place is an error that changes nothing. Texts with a T there that the strict parser refuses are left to Go's general parser (abstract parameter). Refuted: a date and time followed by a zone but without T cannot be read, which is what the SQLite driver stores for time.Time and what PostgreSQL prints for timestamptz."
  },
  {
   "property": "C68",
   "status": "partial",
   "theorems": [
    "C68_text_partial",
    "C68_round_trip_partial",
    "C68_pointer_partial",
    "C68_binary_partial",
    "C68_nil_refuted",
    "C68_second_row_refuted",
    "C68_bool_refuted",
    "C68_binary_refuted"
   ],
   "note": "For every type and all its methods: what the driver delivers reaches the method (text, number and time forms) and what it makes is in the field; round trips for text and binary. Refuted: a nil pointer stays nil or panics when the scanner is used without the generated Addrs, or for the second row after a NULL; booleans arrive as the control characters 0 and 1; binary columns refuse NULL and strings."
  },
  {
   "property": "C69",
   "status": "partial",
   "theorems": [
    "C69_new_variables_partial",
    "C69_field_partial",
    "C69_copy_refuted"
   ],
   "note": "Proved for the scanners that make new variables (numbers, booleans, strings, times), for any heap and row. Refuted for text, own Scan and JSON pointers, which are written through: a copy of the record changes too."
  },
  {
   "property": "C70",
   "status": "partial",
   "theorems": [
    "C70_read_partial",
    "C70_overwrite_partial",
    "C70_null_partial",
    "C70_round_trip_partial",
    "C70_stale_refuted",
    "C70_trailing_refuted",
    "C70_own_null_refuted"
   ],
   "note": "Both directions for every nested type and every JSON text into a zero field, and over old content when the text mentions every part; writer and reader round trip with the RFC 8259 reader of SpecJson and a concrete model of the encoder. Floats and numbers inside interfaces are not modelled; the decoder's behaviour on texts that are not JSON is a parameter. Refuted: old map entries and fields absent from the text stay, null keeps old scalars and structs, anything may follow the first value, NULL hands an own UnmarshalJSON the empty text."
  },
  {
   "property": "C71",
   "status": "partial",
   "theorems": [
    "C71_patterns",
    "C71_read_partial",
    "C71_exact",
    "C71_exact_int",
    "C71_round_trip_partial",
    "C71_accepted",
    "C71_mysql_refuted",
    "C71_lossy_refuted",
    "C71_single_refuted"
   ],
   "note": "IEEE 754 rounding to nearest even is proved for the conversions (nearest number of the format, ties to even, overflow threshold), every bit pattern is covered, exactness is an iff, and finite values round-trip through the declared columns for every combination but MySQL float64. ParseFloat is a contract; infinities and NaN are left out of the round trip. Refuted: MySQL declares FLOAT (single precision) for float64 fields, so every float64 that is not a single precision number changes silently; float32 fields silently narrow float64 values and turn large ones into infinities; odd integers above 2^53 (2^24) change silently; a driver's float32 is refused by both scanners."
  },
  {
   "property": "C72",
   "status": "partial",
   "theorems": [
    "C72_users_files_partial",
    "C72_recovery",
    "C72_outputs_partial",
    "C72_failure_refuted",
    "C72_two_sources_refuted",
    "C72_operator_file_refuted",
    "C72_skip_empty_refuted",
    "C72_absolute_refuted"
   ],
   "note": "Proved for every crash point: only the generated files change (missing: the file named like the operators next to the database code), recovery by repeating is full, and the outputs of a successful run. The parser and the renderer are parameters whose answers do not depend on generated files; file operations succeed (failing ones: C95). Refuted: a failed run has removed the old generated file or left an empty one; with two sources in one package only the last counts; the operator file name is removed from the database directory; skip_empty has no effect; an absolute database directory is taken for a source."
  },
  {
   "property": "C73",
   "status": "partial",
   "theorems": [
    "C73_type_partial",
    "C73_expression_partial",
    "C73_variable_partial",
    "C73_two_packages_refuted",
    "C73_digit_refuted",
    "C73_variable_refuted",
    "C73_type_first_refuted",
    "C73_len_refuted"
   ],
   "note": "Proved: a type whose names come from one package, and an expression that starts with a function of another package (all built-in mappings), are written with the names in the file, the package is imported and nothing else is; an expression over the record's fields keeps its text. Packages whose path has no slash must be imported under their own path (otherwise the replacement also hits parts of other names). packages.Load is a parameter. Function, channel, struct and interface types and non-ASCII names are left out. Refuted: two packages in one type; path segments that start with a digit; a package called like the record variable; a configured expression in which the type comes first; {{len}} in configured types; and every expression over a field imports a package called like the variable."
  },
  {
   "property": "C74",
   "status": "partial",
   "theorems": [
    "C74_names_partial",
    "C74_accepted_partial",
    "C74_distinct_partial",
    "C74_no_values_refuted",
    "C74_embedded_refuted",
    "C74_field_refuted",
    "C74_own_refuted",
    "C74_wrong_type_refuted"
   ],
   "note": "Proved for structs with ASCII names: exactly which method names are generated (any getter prefix); for the default prefix, exactly which runtime functions take the model for every driver, and exactly when the generated names are distinct. Refuted: a read-only model with a key, or one whose only column is a generated key, has no Values method, so finding, locking, deleting and paging by key do not take it; fields of the same name in two embedded structs give duplicate methods; fields XValue or ColumnX beside X clash with methods; methods other than five are written again although the author has them; a method of the wrong type is passed over in silence unless strict is set. Missing: other prefixes for acceptance and distinctness; methods promoted from an embedded model count as the author's own (as the code does), so a struct that embeds a generated model of another package keeps that model's Columns, Values and TableName."
  },
  {
   "property": "C75",
   "status": "proved",
   "theorems": [
    "C75_values_are_arguments",
    "C75_same_text",
    "C75_arguments_verbatim",
    "C75_generated"
   ],
   "note": "Proved for every call of the runtime functions, as relational parametricity: for any relation on values, the same call on related values ends the same way with the same text and related arguments. Records of generated types are such calls whatever their fields hold. The model carries the values as an abstract type, so the theorem rests on that reading of the templates and no edit of the model that keeps the type can break it (which values become which arguments is proved in C25 to C31): that the templates never format a value into a statement before sending it (SqlStmt.Format is for printing only) is read off the templates. Table names, column names and lock modes are texts the caller gives and do enter the statement; a caller's own WhereClause function is not modelled."
  },
  {
   "property": "C76",
   "status": "proved",
   "theorems": [
    "C76_source",
    "C76_source_exists"
   ],
   "note": "Proved for the whole text of the methods of one struct (ModelText.v follows generate.go print by print; SpecSource.v is an independent reader of Go source: tokens, automatic semicolons, comments, brackets, declarations, statements; SpecOutput.v says what each method is to contain in terms of the fields as declared). Assumed of what the text is put together from: names are ASCII identifiers, and the printed valuers, scanners and type names are single-line expressions whose brackets match; that such an expression keeps its meaning when a path is substituted is not claimed here. The update statement is claimed in full but for the case C20 refutes. Not included: the file header, imports and goimports, type checking of the result."
  },
  {
   "property": "C77",
   "status": "partial",
   "theorems": [
    "C77_file",
    "C77_names_partial",
    "C77_alias_refuted"
   ],
   "note": "Proved: the whole file for any list of models reads as package clause, import declaration and the methods of C76; each imported package has one import, and the file refers to it by the name the expressions use unless that name is the last element of its path and the package calls itself otherwise, in which case it does not. Refuted for packages n at a/n and b/n1: the second is called n1 in expressions, and as n1 is the last element of its path the alias is left out, so both are n and n1 is undefined. imports.Process, which runs afterwards, is not modelled."
  },
  {
   "property": "C78",
   "status": "partial",
   "theorems": [
    "C78_broken_refuted",
    "C78_value_partial",
    "C78_scan_partial",
    "C78_value_refuted",
    "C78_scan_refuted"
   ],
   "note": "Proved: for types with a method Value (Scan) of their own, basic types, named types over them, times, pointers to these, slices of basic types (not named, not behind pointers for reading), lists of bytes, fixed arrays of bytes and runes, maps, structs and anything else that goes through JSON, the generated text reads as one expression, that is well typed in the file, with a type database/sql takes. Refuted for the rest: named lists of basic elements are given themselves as type argument; *[16]byte gives *v.F[:], which reads as *(v.F[:]); pointers to pointers are converted as if they were values; pointers to lists are read through a list of lists; for PostgreSQL [][]byte uses a type pgtype.ByteArray that does not exist. The typing rules are those of the Go specification for the forms that occur; type inference is represented by the signatures of the functions of sequel/encoding. Column mappings of the configuration are excluded. A configured mapping whose template is not closed makes the generator panic (C78_broken_refuted)."
  },
  {
   "property": "C79",
   "status": "partial",
   "theorems": [
    "C79_form_partial",
    "C79_form_refuted"
   ],
   "note": "Proved on the generated texts: they read as well typed expressions, and what database/sql sends for the one is what the other takes, for columns of the kinds of C78 that are no pointers, pointers to basic types, structs, types without a name and types with their own methods. Refuted: a pointer to a named type that is no struct (*Status with type Status string) is written as the string and read as JSON; a rune is written as a text and read into a number. Types whose methods come without their counterpart are excluded (refuted in C65), configured mappings as well. The form of a value is that of database/sql/driver.DefaultParameterConverter and the documented behaviour of the functions of sequel/encoding."
  },
  {
   "property": "C80",
   "status": "partial",
   "theorems": [
    "C80_pg_text_partial",
    "C80_pg_down_refuted",
    "C80_mysql_text_partial",
    "C80_mysql_down_refuted",
    "C80_string_default_exact_partial",
    "C80_injection_refuted",
    "C80_bytes_default_refuted",
    "C80_sqlite_refuted"
   ],
   "note": "C80_pg_text_partial, C80_mysql_text_partial: for names that can be quoted, types and defaults that are SQL of their own, the two sections of the file read as the statements of C49's model, for every model and table. C80_string_default_exact_partial: string defaults are read back exactly when they hold no quote (nor, in MySQL, a backslash). Violated beyond that: a column missing from the model makes the Down section unreadable (C80_pg_down_refuted, C80_mysql_down_refuted: a column is added without a type), a default with a quote becomes SQL (C80_injection_refuted), []byte defaults panic (C80_bytes_default_refuted), SQLite writes nothing (C80_sqlite_refuted)."
  },
  {
   "property": "C81",
   "status": "partial",
   "theorems": [
    "C81_settings",
    "C81_settings_unique",
    "C81_run",
    "C81_source",
    "C81_flag_partial",
    "C81_flag_dropped_refuted",
    "C81_flag_unreadable",
    "C81_flag_leak_refuted",
    "C81_broken_refuted",
    "C81_init_keeps",
    "C81_init_writes",
    "C81_init_effect",
    "C81_init_crash_refuted"
   ],
   "note": "C81_run, C81_source, C81_settings(_unique): which settings sqlgen and sqlgen generate run with, for all file systems and any YAML reader. C81_init_keeps, C81_init_writes, C81_init_effect: init. C81_flag_unreadable: -c with a file that is missing or cannot be decoded is an error. C81_flag_partial: -c FILE in a directory without a configuration file. Violated: -c FILE ignores read_only, omit_getters and source_map of FILE (C81_flag_dropped_refuted) and keeps settings of a configuration file of the directory (C81_flag_leak_refuted); a file that cannot be read makes every command panic, also with -c and init --force (C81_broken_refuted); stopping init --force between truncating and writing loses the settings (C81_init_crash_refuted)."
  },
  {
   "property": "C82",
   "status": "partial",
   "theorems": [
    "C82_types_partial",
    "C82_pg_unknown_refuted",
    "C82_array_refuted",
    "C82_null_partial",
    "C82_null_refuted",
    "C82_default",
    "C82_string",
    "C82_string_refuted",
    "C82_rune",
    "C82_byte",
    "C82_byte_refuted",
    "C82_bytes",
    "C82_float32",
    "C82_float64_partial",
    "C82_float64_refuted",
    "C82_time",
    "C82_time_refuted",
    "C82_int_lists_partial",
    "C82_int_lists_refuted"
   ],
   "note": "C82_types_partial: every declaration is one of the database, for all dialects, Go types and columns, except five list types of PostgreSQL (C82_pg_unknown_refuted: blob, double[], text[{{len}}]) and arrays without a declared size (C82_array_refuted). C82_null_partial, C82_default: NOT NULL and defaults. C82_string, C82_rune, C82_bytes, C82_float32, C82_float64_partial, C82_time, C82_byte, C82_int_lists_partial: exactly which values are kept. Violated: NULL is always allowed for strings in MySQL and for everything in PostgreSQL (C82_null_refuted); texts over 255 characters (C82_string_refuted); bytes above 9 in CHAR(1) (C82_byte_refuted); float64 in FLOAT (C82_float64_refuted); times in MySQL keep whole seconds before 2038 (C82_time_refuted); lists of int, uint, uint16, uint32, uint64 in PostgreSQL (C82_int_lists_refuted)."
  },
  {
   "property": "C83",
   "status": "partial",
   "theorems": [
    "C83_sound_partial",
    "C83_exact_partial",
    "C83_nil_refuted",
    "C83_negation_refuted",
    "C83_not_in_nil_refuted",
    "C83_query_partial",
    "C83_query_one_partial",
    "C83_delete_partial",
    "C83_delete_all",
    "C83_update_partial"
   ],
   "note": "sound_partial: a row that the database chooses for the written condition is always one asked for, NULLs included. exact_partial: the converse where no NULL is among the values given and the cells compared. query_partial, query_one_partial, delete_partial, update_partial, delete_all carry this to whole statements and tables. Missing: NULL (nil_refuted: Equal and In with nil never find NULL; negation_refuted: NotEqual, NotIn and NotBetween leave rows with NULL out; not_in_nil_refuted: one nil among the values of NotIn empties the answer), empty groups and empty In (C30), group by, and update or delete with order or limit (C32)."
  },
  {
   "property": "C84",
   "status": "partial",
   "theorems": [
    "C84_mysql",
    "C84_pg_partial",
    "C84_pg_schemas_refuted",
    "C84_pg_missed_refuted",
    "C84_failure",
    "C84_no_database",
    "C84_types_partial",
    "C84_types_refuted"
   ],
   "note": "mysql: exactly the columns of the table of the current database, in order, with their contents. pg_partial: the same for PostgreSQL when no other schema has a table of that name. types_partial: for which Go types the type shown by PostgreSQL's catalogue is the text the dialect declares (an equivalence for every Go type of the dialect). failure: when the query fails or its rows break off, nothing is written. no_database: MySQL without a database is an error. Missing: PostgreSQL reads the columns of all schemas (schemas_refuted), so that a missing table is not created when another schema has one like it (missed_refuted); int64, floats, rune, byte and all lists look changed for ever (types_refuted). The reading of the index catalogue is dead code."
  },
  {
   "property": "C85",
   "status": "partial",
   "theorems": [
    "C85_pg_partial",
    "C85_written",
    "C85_same_key_refuted",
    "C85_mysql"
   ],
   "note": "Proved for all models, keys and existing tables on the text of the migration, read by the independent reader of C80: in MySQL every table is created; in PostgreSQL all are created exactly when no two keys have the same digest. Refuted: in PostgreSQL two tables whose keys have the same column names (for instance id) cannot both be created, because the name of the key does not depend on the table; keys [\"a,b\"] and [\"a\",\"b\"] clash as well. Only the CREATE TABLE statement is executed here; the ALTER TABLE that follows it is C49."
  },
  {
   "property": "C86",
   "status": "partial",
   "theorems": [
    "C86_pg_partial",
    "C86_one_pg_partial",
    "C86_pg_twice_refuted",
    "C86_pg_nothing_partial",
    "C86_one_nothing_refuted",
    "C86_mysql_partial",
    "C86_one_mysql_partial",
    "C86_mysql_index_refuted"
   ],
   "note": "Proved for every batch, table content and comparison of values on the text and arguments of the statements, read by the reader of SpecSql.v and executed by the INSERT of SpecConflict.v (written from the manuals). PostgreSQL: whenever the statement succeeds the table is as expected and the rows come back in order; it succeeds exactly when no two records have the same key (key as the only unique index). MySQL: it always succeeds (key as the only unique index). Refuted: two records with the same key make PostgreSQL refuse the batch; UpsertOne with do nothing reports an error when the record is stored already (no row to scan); with a second unique index MySQL may change the row of another key and store nothing under the key of the record. Missing: what C26 and C27 miss (columns that are not written, quoted composite keys on PostgreSQL, custom conflict columns), tables with nothing to update."
  },
  {
   "property": "C87",
   "status": "partial",
   "theorems": [
    "C87_query_partial",
    "C87_query_one_partial",
    "C87_select_count_refuted",
    "C87_select_refuted",
    "C87_find_partial",
    "C87_lock_partial",
    "C87_generated_query_partial",
    "C87_own_find_partial",
    "C87_refused"
   ],
   "note": "Proved end to end (statement text, its reading, the rows a database chooses, scanning into fields) for every condition, order, limit, table content and conversion when whole records are asked for, and for finding and locking by key, with the generated statement or the fallback. Refuted: when columns are selected, fields are filled by position and not by name (C87_select_refuted), and fewer or more columns than the model has make every query with a result fail (C87_select_count_refuted). Missing: GROUP BY, other tables, OFFSET without LIMIT and empty groups (refuted in C32), NULL in conditions (C83), streams that break off (refuted in C38), lock modes on SQLite (refuted in C29)."
  },
  {
   "property": "C88",
   "status": "partial",
   "theorems": [
    "C88_insert_pg_partial",
    "C88_upsert_pg_partial",
    "C88_upsert_one_pg_partial",
    "C88_nothing_refuted",
    "C88_insert_one_pg_partial",
    "C88_generated_key_pg_partial",
    "C88_insert_one_partial",
    "C88_narrow_refuted",
    "C88_hidden_refuted",
    "C88_empty",
    "C88_refused",
    "C88_refused_others"
   ],
   "note": "Statements executed on a table with a state (rows, next default values), then read back. PostgreSQL: Insert and Upsert leave each record equal to its row; InsertOne adds one row made of the record and the database's values, which the record then holds (generated key included). MySQL/SQLite: the generated key reaches the record if the field's type has room for it. Refuted: DO NOTHING (the first record becomes the second), keys that do not fit the field (truncated silently), a key hidden by a field of the outer struct (another field is overwritten). Missing: bulk inserts with columns left to the database (C25), streams that break off (C38)."
  },
  {
   "property": "C89",
   "status": "partial",
   "theorems": [
    "C89_upserts_partial",
    "C89_upserted_table_partial",
    "C89_upserted_found_partial",
    "C89_goroutines_partial",
    "C89_replies_partial",
    "C89_table_partial",
    "C89_found_partial"
   ],
   "note": "By induction on the calls, with the invariant that the rows hold the map: replies_partial (each reply of each call of any history), table_partial (the rows at the end), found_partial (what was inserted is found). Outages between calls included. With Insert of many records, UpsertOne and Upsert as well: upserts_partial, upserted_table_partial, upserted_found_partial. For goroutines with any schedule: goroutines_partial. Missing: DO NOTHING, upserts in SQLite and UpsertOne with composite keys in MySQL (refuted at C26, C27, C86), columns written by the database or read-only (C18, C20), functions around columns (C19), other programs changing the table meanwhile."
  },
  {
   "property": "C90",
   "status": "partial",
   "theorems": [
    "C90_upsert_one_partial",
    "C90_upsert_partial",
    "C90_insert_partial",
    "C90_upsert_others_partial",
    "C90_sequence_partial",
    "C90_overwritten_refuted",
    "C90_shared_columns_refuted",
    "C90_option_slices_refuted",
    "C90_second_insert_refuted"
   ],
   "note": "Generated models (Columns() returns a literal): on any heap the calls send what they send on lists, and change at most the cells after the slice of omitted fields within its capacity; none when that slice is full, for any sequence of calls. Refuted in general: with spare capacity the next cell of the caller's array becomes the key's name (for every heap, model and option), so overlapping options change the conflict target; a hand-written Columns() that returns one slice loses a column at each Insert. UpdateByPK's fallback and slices of values are not on the heap."
  },
  {
   "property": "C91",
   "status": "partial",
   "theorems": [
    "C91_alone",
    "C91_upserts_partial",
    "C91_full_partial",
    "C91_shared_room_refuted"
   ],
   "note": "Proved for all numbers of calls, models, heaps, growth policies and schedules when the room of a slice of omitted fields is not seen or shared by another call, in particular for options whose slices have no room. Missing, and refuted: one option slice with room shared by two calls, where a call sends an update of its own key. Only UpsertOne on PostgreSQL is cut into steps, and each append is one atomic step."
  },
  {
   "property": "C92",
   "status": "partial",
   "theorems": [
    "C92_lookup",
    "C92_own_partial",
    "C92_composite_refuted",
    "C92_readonly_refuted",
    "C92_imported_refuted",
    "C92_second_run_refuted"
   ],
   "note": "Proved for embedded structs of the package at work: the outer struct is seen as generated for it when it can be written to, has a column to insert, and has no composite key beside a promoted PK. The method lookup of the model is Go's (shallowest, unique). Otherwise the code violates the property: a composite key is hidden by the PK of the embedded model (DeleteByPK deletes by it), a read-only struct inserts rows of the embedded model, a model of another package gives its table, columns and values, and a second run can differ from the first."
  },
  {
   "property": "C93",
   "status": "proved",
   "theorems": [
    "C93_one_at_a_time",
    "C93_none_waits"
   ],
   "note": "A call builds its statement, sends it, reads the answer: at most one statement for each call, whatever the options. C93_one_at_a_time: strong linearizability (the order only grows at its end) for every schedule; C93_none_waits: progress. The database executes a statement as one step; records and option slices are not shared between goroutines (C91 says what happens then). With the database of C89 the map explains the replies: C89_goroutines_partial."
  },
  {
   "property": "C94",
   "status": "partial",
   "theorems": [
    "C94_unchanged",
    "C94_moving_partial",
    "C94_growing_partial",
    "C94_ends_partial",
    "C94_deleted_refuted",
    "C94_generated_partial"
   ],
   "note": "moving_partial (and generated_partial for generated models): order, no key twice, nothing that stays is missed, the only possible error; growing_partial: no error when keys only come; ends_partial: the iteration ends when finitely many records are ever there; unchanged: the model is that of C35 and C36 when the table does not change. Refuted: the row after a page is deleted before the next page, then the iteration fails although the other rows are there (deleted_refuted). Missing: no cursor, conditions, orderings, composite keys outside PostgreSQL, pages of 65535 rows (refuted at C35)."
  },
  {
   "property": "C95",
   "status": "partial",
   "theorems": [
    "C95_users_files_partial",
    "C95_reported_partial",
    "C95_success_partial",
    "C95_repair",
    "C95_healthy",
    "C95_stale_refuted",
    "C95_unreadable_refuted",
    "C95_cut_refuted"
   ],
   "note": "Proved for every outcome of every operation and every stop: only generated files change (missing: the file of C72_operator_file_refuted), failed opens, writes, closes and mkdirs are reported, the outputs after success, repair by a run without failures (full), and that a run without failures is the one of C72. Refuted: an old generated file that cannot be removed stays though success is reported; a directory that cannot be listed is passed over with success; a write that fails panics and leaves the beginning of the code."
  },
  {
   "property": "C96",
   "status": "partial",
   "theorems": [
    "C96_locked_partial",
    "C96_no_deadlock",
    "C96_update_db_refuted",
    "C96_commit_first_refuted",
    "C96_refused_partial"
   ],
   "note": "LockByPK takes a *sql.Tx but UpdateByPK a *sql.DB. With the update statement sent in the transaction by hand no update is lost, whatever the number of workers and the schedule, and there is no deadlock (C96_locked_partial, C96_no_deadlock). UpdateByPK while the record is locked waits for its own transaction forever (C96_update_db_refuted); after the commit, updates are lost (C96_commit_first_refuted). Not covered: shared locks, keys that the workers change, errors of the connection. SQLite: LockByPK always fails (C29). A refused statement ends the worker without a commit (C96_refused_partial); rolling back is left to the caller."
  },
  {
   "property": "C97",
   "status": "partial",
   "theorems": [
    "C97_given_back_partial",
    "C97_deferred",
    "C97_paging_partial",
    "C97_panic_refuted",
    "C97_no_deadlock",
    "C97_transaction_refuted",
    "C97_transaction_partial"
   ],
   "note": "Proved: every call takes connections one after the other and gives each back, also the page loop with calls in its body; the functions that read several rows even when a method panics; goroutines on a pool of any size can always be finished. Refuted: where a model's Addrs method panics, functions that read one row and the page loop lose the connection; goroutines that call UpdateByPK inside a transaction wait for ever when there are as many as connections. Panics of Scan methods inside database/sql are not modelled."
  },
  {
   "property": "C98",
   "status": "partial",
   "theorems": [
    "C98_modest_partial",
    "C98_fair_partial",
    "C98_append_refuted",
    "C98_append_partial",
    "C98_endless_refuted",
    "C98_generated_partial"
   ],
   "note": "Proved for every body that stays within its page, whatever it writes there, and for anything after slices.Clip (C98_modest_partial for any database, C98_fair_partial and C98_generated_partial with C94's guarantees), and for appends of none or at least two records to a full page (C98_append_partial). Refuted: page = append(page, x) overwrites the cursor, so the next page starts at x (C98_append_refuted); a body that appends the first record of its page loops for ever (C98_endless_refuted)."
  },
  {
   "property": "C99",
   "status": "partial",
   "theorems": [
    "C99_pages",
    "C99_records_partial",
    "C99_cursor_partial",
    "C99_cursor_refuted"
   ],
   "note": "Proved: records of pages keep their rows until the end of the iteration (C99_pages); a caller's record that shares no struct with columns with the cursor stays as it is (C99_records_partial), also the cursor itself when none of its columns is behind a pointer that is not nil (C99_cursor_partial). Refuted: the columns of the cursor, and of its copies, that are in a struct behind a pointer are overwritten with the row of the database (C99_cursor_refuted). One level of structs; columns of pointer type: C69."
  },
  {
   "property": "C100",
   "status": "partial",
   "theorems": [
    "C100_nearest_partial",
    "C100_exact_partial",
    "C100_enough_partial",
    "C100_fraction_refuted",
    "C100_not_json_refuted",
    "C100_close_partial",
    "C100_order_partial"
   ],
   "note": "Proved: a list of numbers is a JSON array of as many numbers, each the decimal with the asked number of digits nearest to the element, halves to the even digit (C100_nearest_partial); elements with no more digits than asked come out as they are (C100_exact_partial), so a precision of 1074 loses nothing of any float64 (C100_enough_partial); elements in order give numbers in order, whatever the precision (C100_order_partial); lists with one text differ in no element by more than a unit of the last digit printed (C100_close_partial). Refuted: without a precision the fraction of every element is lost, so lists that differ have one text (C100_fraction_refuted); a list with an infinity or a NaN anywhere gives a text that is not JSON (C100_not_json_refuted). Negative precisions (the shortest text) are not modelled; the fixed point format of strconv is modelled as one exact rounding."
  },
  {
   "property": "C101",
   "status": "partial",
   "theorems": [
    "C101_back_partial",
    "C101_apart_partial",
    "C101_seconds_partial",
    "C101_exact_partial",
    "C101_fraction_refuted",
    "C101_zone_refuted",
    "C101_year_refuted"
   ],
   "note": "Proved: for times of the years 0 to 9999 in zones of whole minutes the text is a JSON array of the RFC 3339 texts of the times to the second (C101_seconds_partial), and of the times themselves when they have no fraction (C101_exact_partial). TimeScanner reads the strings back as these times (C101_back_partial), and lists that differ in more than fractions have texts that differ (C101_apart_partial). Refuted: lists that differ in fractions of seconds have one text (C101_fraction_refuted); in a zone with seconds the string is that of another time (C101_zone_refuted); a year of five digits gives no RFC 3339 text (C101_year_refuted). Years before 0 are not modelled."
  },
  {
   "property": "C102",
   "status": "partial",
   "theorems": [
    "C102_string_partial",
    "C102_apart"
   ],
   "note": "Proved: texts are stored byte by byte and NULL as nothing, strict or not; a strict scanner refuses other values and leaves the field alone, and without strictness an integer is stored as its decimal text and a boolean as true or false (C102_string_partial); texts that differ are read as fields that differ (C102_apart). The texts of floats and times are those of strconv and time, left abstract."
  }
 ]
}
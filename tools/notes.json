{
 "C01": "Both encodings, both source representations, nil/NULL.",
 "C02": "Hex format written by Value; the legacy escape format is only read. Which texts are read, and as what, for both formats of bytea: C02_bytea_array_source.",
 "C03": "All widths up to 64, both encodings.",
 "C04": "Holds for the JSON-style types and for PostgreSQL values below 2^63. Refuted for PostgreSQL uint64 values from 2^63 on: uint_array.go reads through ParseInt.",
 "C05": "Round trip plus rejection of anything else.",
 "C06": "Exact for 64-bit signed and for all JSON-style unsigned types. Refuted for narrow signed types and PostgreSQL unsigned types: T(n) truncates silently. For 64-bit signed and JSON unsigned types the accepted texts are characterised exactly.",
 "C07": "Every array type, every source.",
 "C08": "Every array type, every source.",
 "C09": "Integer and unsigned slices are JSON and denote the list. String slices are JSON when no string has a control character; refuted with one. Non-empty bool slices are never JSON ([t,f]).",
 "C10": "Holds whenever the following text does not start with a quote (SQL string syntax itself merges two adjacent quotes).",
 "C11": "Text sources are exact. int64 sources are exact only in range; every out-of-range int64 is silently changed.",
 "C12": "Holds for sources of full length or when the array was zero; stale tail otherwise (refuted).",
 "C13": "Holds for []byte sources into a zero array or of full length. Refuted: NULL leaves old content, string sources store bytes instead of code points.",
 "C14": "Holds for the column scanner. The generator's internal Bool type reads yes and no in any case and the texts of ParseBool, and refuses the rest (C14_catalog_text_partial). The generator's internal Bool type inverts integers (refuted).",
 "C15": "Numbers and booleans: full. Strings: for characters strconv.Quote escapes the JSON way; refuted for BEL, NUL, invalid UTF-8.",
 "C16": "From the declarations of the struct through the parser to the generated lists; the text of the Go literals is read back. Order of the columns relative to the declarations is C41.",
 "C17": "From the declarations of the struct to the statement as the database reads it. PostgreSQL returns the columns in the order of the scan destinations.",
 "C18": "All row counts, all dialects.",
 "C19": "Missing: extra keys beside an auto-increment key are not compared, a wrapped key is compared without its wrapper (both refuted).",
 "C20": "Refuted for PostgreSQL single keys: the key's placeholder number is off.",
 "C21": "From the declarations of the struct to the assignments as the database reads them.",
 "C22": "Single key: always. Composite key: with identifier quoting off; refuted with quoting on.",
 "C23": "Exact characterisation: faithful iff every character is in the class literal_char. Refuted for non-ASCII text.",
 "C24": "Names without quote character, backslash or unprintable character. Refuted outside.",
 "C25": "Rows, columns and values read back from the bulk statement for models with a value per column. Refuted for every generated table with an auto-increment or read-only column: each non-empty Insert is rejected or panics.",
 "C26": "Binding read back for PostgreSQL and MySQL when Values() lists every column. Refuted: tables with auto-increment or read-only columns, MySQL UpsertOne with a composite key (panic), MySQL Upsert with an auto key, every SQLite upsert.",
 "C27": "Update list is exactly the non-key, non-omitted columns for single keys and unquoted composite keys. Refuted: empty list is a syntax error; PostgreSQL composite keys with quoted identifiers are assigned too.",
 "C28": "Refuted for every model with a value per column except a one-column composite key on PostgreSQL.",
 "C29": "Find, delete and lock read back with the key equality. Refuted: locks on SQLite, composite keys named by reserved words.",
 "C30": "Every condition without an empty And, Or, In or NotIn reads back as composed on all dialects. Refuted for empty groups: a panic (empty In, MySQL/SQLite) or a text that is no condition.",
 "C31": "All histories of Var, Vars, Write and Reset. Refuted only for Vars without values on MySQL/SQLite, which panics.",
 "C32": "QueryStmt, QueryOneStmt, ExecStmt read back completely. Refuted: OFFSET without LIMIT (MySQL, SQLite), ORDER BY in UPDATE/DELETE (PostgreSQL), UPDATE without assignments, empty groups, and the given table ignored when the model names one.",
 "C33": "Proved for texts whose fixed pieces do not contain the placeholder mark, with the literals of the values. Refuted otherwise (panic), for values that are no basic kind (panic), and for the quoting of strings on SQLite and times on PostgreSQL.",
 "C34": "Proved for every interleaving of users that touch only what they hold; what was obtained stays unchanged even without that discipline. Refuted for the generator, which releases a builder twice: the list of SQL columns generated for a later table is then empty.",
 "C35": "Proved from a cursor, without condition or ordering, for any database that answers by the semantics of SpecDb.v, any table with a comparable unique key and any page size below 65535; also stated for generated models with either find statement. Refuted: no cursor, a cursor whose row is gone, any ordering, a composite key outside PostgreSQL, a condition (second page fails; with a cursor the first), page size 65535 (one empty page).",
 "C36": "Backwards. Proved from a cursor, without condition or ordering, for any database that answers by the semantics of SpecDb.v, any table with a comparable unique key and any page size below 65535; also stated for generated models with either find statement. Refuted: no cursor, a cursor whose row is gone, any ordering, a composite key outside PostgreSQL, a condition (second page fails; with a cursor the first), page size 65535 (one empty page).",
 "C37": "Proved with a cursor and nothing else, and with a condition and no cursor, in both directions. Refuted: with any ordering a parenthesis is never closed; with both a condition and a cursor they are not joined; with neither the condition is missing; a composite key can only be ordered by on PostgreSQL; page size 65535 asks for no rows.",
 "C38": "Proved for the calls that read one row and for rows that cannot be converted. Refuted for every call that reads several rows (QueryStmt, Insert and Upsert on PostgreSQL, both page iterators): rows.Err is never consulted and rows.Close succeeds after Next returned false, so a stream that fails after any number of rows yields a shortened result as success. The behaviour of database/sql Rows is modelled from its documentation.",
 "C39": "Proved when the database returns one row per record in order, also stated for the generated models with the RETURNING list of the statement. Refuted with skipped records (DO NOTHING): the row of a record lands in an earlier record as soon as one before it was skipped.",
 "C40": "Empty batches leave any database state unchanged and report zero rows; non-empty batches are never dropped.",
 "C41": "Proved for structs in which only the last declaration has several names and at most two levels of embedding, for any sorting algorithm; refuted for grouped names (A, B, C T; D T) and for deeper embedding (index slices share memory).",
 "C42": "Every column comes from an exported field not tagged -, and each such field has its column, for all shapes; refuted for fields inside an embedded struct that is itself tagged -.",
 "C43": "Proved for all shapes, with an exact characterisation of what is accepted.",
 "C44": "Name before the first comma, options in any order, unknown options ignored, raw-literal tags read: proved for all texts. Refuted: options in another case, tags written as interpreted string literals.",
 "C45": "For all ASCII names: only lower-case letters, digits and underscores, words kept in order, renaming twice is renaming once. Refuted: leading or repeated underscores of the name survive, non-ASCII letters are mangled. On names made of words: exactly the words joined by underscores.",
 "C46": "For all pairs: required settings never empty, merging twice is merging once, and the user's value or the default for every setting that is handled. Refuted: ReadOnly, OmitGetters and SourceMap are dropped; QuoteIdentifier of the file is overwritten; Database is replaced as a whole; nil DataTypes panic. The defaults themselves are stated one by one.",
 "C47": "For all import sequences: distinct paths have distinct names, a path keeps its name, every loadable package is imported. Refuted: the current package's own name is not set apart; packages that fail to load keep their names and are not imported.",
 "C48": "File patterns select exactly the file however the path is written; folder patterns exactly the files directly in it; ./**/* exactly the Go files at any depth. Refuted: files of subfolders, paths with dots, parent directories, capital letters below **, one-letter folders with *.go, folders with a plus (panic). A star for the files of a folder selects exactly that folder's Go files when every name in the path is a letter followed by more letters, digits or - _ . (C48_star_partial); otherwise nothing, or the files of another folder (C48_star_refuted, C48_star_elsewhere_refuted). Character ranges select by the first character (C48_range_partial); reversed ranges and doubled plus signs panic (C48_reversed_refuted, C48_panic_refuted). Also: with letters, digits and underscores in front of the star exactly the Go files whose names begin with them (C48_prefix_partial), also written from the working directory, with or without the ending (C48_relative_partial); refuted with any other character there, such as a dash: nothing is selected (C48_dash_refuted). A question mark makes the character before it optional instead of standing for one (C48_question_refuted). The beginning of a name behind two stars selects such files at any depth below folders of small letters, digits, _ and - (C48_deep_partial); refuted: all files of a folder whose name begins so are selected too (C48_deep_refuted).",
 "C50": "For all histories of registrations, taken one after the other (sync.Map).",
 "C51": "Addrs and the XValue getters: proved for every struct shape with distinct field names, every well-typed value and every set of columns. Refuted for the ColumnX() clauses used in predicates and Set lists: they evaluate v.A.B without a nil check and panic when a parent pointer is nil. Pointer aliasing (two fields holding the same pointer) and embedded-field promotion are not modelled. C51_column_partial says what ColumnX() gives when no parent pointer is nil.",
 "C53": "Proved for every table content and record, over the semantics of SpecDb.v: insert then find, update then find, and the full round trip when nothing is converted. Missing: key columns with wrappers (C19_wrapped_key_refuted shows they fail), PostgreSQL updates refuted in C20, names outside plain ASCII.",
 "C54": "String fields copy, and strings of the driver are read as they are (C54_string_source). []byte fields alias the driver's buffer (refuted).",
 "C55": "Refuted for all integer lists with two or more elements and for strings; holds for at most one element.",
 "C56": "strconv's float formatting/parsing contract is a hypothesis of the theorem.",
 "C57": "All widths up to 64, signed and unsigned.",
 "C58": "Refuted for rune arrays: runes are stored before the overflow is noticed.",
 "C59": "Refuted: every operator and Set ignore the SQL value function.",
 "C60": "Proved for structs without embedded structs; refuted with them (the comment of the last visited struct is read) and for comments of single types inside a type group.",
 "C61": "Proved for finite trees of embedded structs; refuted for a struct that embeds a pointer to itself.",
 "C62": "Proved for groups without exported non-struct types; refuted: whatever follows such a type in its group is lost.",
 "C63": "For all names: only letters and digits; not empty when the name has an ASCII letter or digit. Refuted: a non-ASCII name becomes empty; camel case of A_bC changes again when renamed twice. On names made of words: exactly the words joined, each with a capital (camel case: except the first).",
 "C49": "Statements are trees, not text; column types are opaque texts; the primary key appears only in CREATE. Proved: PostgreSQL up/down move an existing table to the declared columns and back when no column is dropped and names and nullability keep; MySQL creates a fresh table. Refuted: dropped columns, nullability changes, fresh tables rolled back, serial changes, running twice, MySQL down and existing tables, SQLite. The generator does not call Migrate at this commit (codegen.go 254-259 is commented out).",
 "C52": "Exact list of the integer types whose column holds every value, for the three dialects and for PostgreSQL arrays; the others have a value that does not fit. Exactly which unsigned values change sign on the way to the driver. Floats, texts and times are not covered. The ranges of SQL types are from the manuals (specification).",
 "C64": "Exact: PostgreSQL declares a serial type for all integers but int64, SQLite's INTEGER key is the rowid; MySQL never declares AUTO_INCREMENT.",
 "C65": "Types are a graph of nodes. Proved: types that are no pointers use the same mapping on both sides, and which one; pointers to basic types, structs and slices. Refuted: pointers to other named types and to arrays are read as JSON but written by their mapping; configured mappings are not used to read pointers; a type with only a Value method; two table entries are never reached. Generic instances and type parameters are not modelled. Every predefined type, slices of them and fixed arrays of bytes, runes and strings: C65_predefined_partial, C65_slices_partial, C65_arrays_partial.",
 "C66": "Proved for every type whose definition ends and for type T []T, on the graph of types and, for the expressions of a column, on types; refuted for type A []B; type B []A, where the loop never ends.",
 "C67": "For every text: dates, dates with times, with fractions, and RFC 3339 texts are read as the time they denote, and every other text without a T in the eleventh place is an error that changes nothing. Texts with a T there that the strict parser refuses are left to Go's general parser (abstract parameter). Refuted: a date and time followed by a zone but without T cannot be read, which is what the SQLite driver stores for time.Time and what PostgreSQL prints for timestamptz.",
 "C68": "For every type and all its methods: what the driver delivers reaches the method (text, number and time forms) and what it makes is in the field; round trips for text and binary. Refuted: a nil pointer stays nil or panics when the scanner is used without the generated Addrs, or for the second row after a NULL; booleans arrive as the control characters 0 and 1; binary columns refuse NULL and strings.",
 "C69": "Proved for the scanners that make new variables (numbers, booleans, strings, times), for any heap and row. Refuted for text, own Scan and JSON pointers, which are written through: a copy of the record changes too.",
 "C70": "Both directions for every nested type and every JSON text into a zero field, and over old content when the text mentions every part; writer and reader round trip with the RFC 8259 reader of SpecJson and a concrete model of the encoder. Floats and numbers inside interfaces are not modelled; the decoder's behaviour on texts that are not JSON is a parameter. Refuted: old map entries and fields absent from the text stay, null keeps old scalars and structs, anything may follow the first value, NULL hands an own UnmarshalJSON the empty text.",
 "C71": "IEEE 754 rounding to nearest even is proved for the conversions (nearest number of the format, ties to even, overflow threshold), every bit pattern is covered, exactness is an iff, and finite values round-trip through the declared columns for every combination but MySQL float64. ParseFloat is a contract; infinities and NaN are left out of the round trip. Refuted: MySQL declares FLOAT (single precision) for float64 fields, so every float64 that is not a single precision number changes silently; float32 fields silently narrow float64 values and turn large ones into infinities; odd integers above 2^53 (2^24) change silently; a driver's float32 is refused by both scanners.",
 "C72": "Proved for every crash point: only the generated files change (missing: the file named like the operators next to the database code), recovery by repeating is full, and the outputs of a successful run. The parser and the renderer are parameters whose answers do not depend on generated files; file operations succeed (failing ones: C95). Refuted: a failed run has removed the old generated file or left an empty one; with two sources in one package only the last counts; the operator file name is removed from the database directory; skip_empty has no effect; an absolute database directory is taken for a source.",
 "C73": "Proved: a type whose names come from one package, and an expression that starts with a function of another package (all built-in mappings), are written with the names in the file, the package is imported and nothing else is; an expression over the record's fields keeps its text. Packages whose path has no slash must be imported under their own path (otherwise the replacement also hits parts of other names). packages.Load is a parameter. Function, channel, struct and interface types and non-ASCII names are left out. Refuted: two packages in one type; path segments that start with a digit; a package called like the record variable; a configured expression in which the type comes first; {{len}} in configured types; and every expression over a field imports a package called like the variable.",
 "C74": "Proved for structs with ASCII names: exactly which method names are generated (any getter prefix); for the default prefix, exactly which runtime functions take the model for every driver, and exactly when the generated names are distinct. Refuted: a read-only model with a key, or one whose only column is a generated key, has no Values method, so finding, locking, deleting and paging by key do not take it; fields of the same name in two embedded structs give duplicate methods; fields XValue or ColumnX beside X clash with methods; methods other than five are written again although the author has them; a method of the wrong type is passed over in silence unless strict is set. Missing: other prefixes for acceptance and distinctness; methods promoted from an embedded model count as the author's own (as the code does), so a struct that embeds a generated model of another package keeps that model's Columns, Values and TableName.",
 "C75": "Proved for every call of the runtime functions, as relational parametricity: for any relation on values, the same call on related values ends the same way with the same text and related arguments. Records of generated types are such calls whatever their fields hold. The model carries the values as an abstract type, so the theorem rests on that reading of the templates and no edit of the model that keeps the type can break it (which values become which arguments is proved in C25 to C31): that the templates never format a value into a statement before sending it (SqlStmt.Format is for printing only) is read off the templates. Table names, column names and lock modes are texts the caller gives and do enter the statement; a caller's own WhereClause function is not modelled.",
 "C76": "Proved for the whole text of the methods of one struct (ModelText.v follows generate.go print by print; SpecSource.v is an independent reader of Go source: tokens, automatic semicolons, comments, brackets, declarations, statements; SpecOutput.v says what each method is to contain in terms of the fields as declared). Assumed of what the text is put together from: names are ASCII identifiers, and the printed valuers, scanners and type names are single-line expressions whose brackets match; that such an expression keeps its meaning when a path is substituted is not claimed here. The update statement is claimed in full but for the case C20 refutes. Not included: the file header, imports and goimports, type checking of the result.",
 "C77": "Proved: the whole file for any list of models reads as package clause, import declaration and the methods of C76; each imported package has one import, and the file refers to it by the name the expressions use unless that name is the last element of its path and the package calls itself otherwise, in which case it does not. Refuted for packages n at a/n and b/n1: the second is called n1 in expressions, and as n1 is the last element of its path the alias is left out, so both are n and n1 is undefined. imports.Process, which runs afterwards, is not modelled.",
 "C78": "Proved: for types with a method Value (Scan) of their own, basic types, named types over them, times, pointers to these, slices of basic types (not named, not behind pointers for reading), lists of bytes, fixed arrays of bytes and runes, maps, structs and anything else that goes through JSON, the generated text reads as one expression, that is well typed in the file, with a type database/sql takes. Refuted for the rest: named lists of basic elements are given themselves as type argument; *[16]byte gives *v.F[:], which reads as *(v.F[:]); pointers to pointers are converted as if they were values; pointers to lists are read through a list of lists; for PostgreSQL [][]byte uses a type pgtype.ByteArray that does not exist. The typing rules are those of the Go specification for the forms that occur; type inference is represented by the signatures of the functions of sequel/encoding. Column mappings of the configuration are excluded. A configured mapping whose template is not closed makes the generator panic (C78_broken_refuted).",
 "C79": "Proved on the generated texts: they read as well typed expressions, and what database/sql sends for the one is what the other takes, for columns of the kinds of C78 that are no pointers, pointers to basic types, structs, types without a name and types with their own methods. Refuted: a pointer to a named type that is no struct (*Status with type Status string) is written as the string and read as JSON; a rune is written as a text and read into a number. Types whose methods come without their counterpart are excluded (refuted in C65), configured mappings as well. The form of a value is that of database/sql/driver.DefaultParameterConverter and the documented behaviour of the functions of sequel/encoding.",
 "C80": "C80_pg_text_partial, C80_mysql_text_partial: for names that can be quoted, types and defaults that are SQL of their own, the two sections of the file read as the statements of C49's model, for every model and table. C80_string_default_exact_partial: string defaults are read back exactly when they hold no quote (nor, in MySQL, a backslash). Violated beyond that: a column missing from the model makes the Down section unreadable (C80_pg_down_refuted, C80_mysql_down_refuted: a column is added without a type), a default with a quote becomes SQL (C80_injection_refuted), []byte defaults panic (C80_bytes_default_refuted), SQLite writes nothing (C80_sqlite_refuted).",
 "C81": "C81_run, C81_source, C81_settings(_unique): which settings sqlgen and sqlgen generate run with, for all file systems and any YAML reader. C81_init_keeps, C81_init_writes, C81_init_effect: init. C81_flag_unreadable: -c with a file that is missing or cannot be decoded is an error. C81_flag_partial: -c FILE in a directory without a configuration file. Violated: -c FILE ignores read_only, omit_getters and source_map of FILE (C81_flag_dropped_refuted) and keeps settings of a configuration file of the directory (C81_flag_leak_refuted); a file that cannot be read makes every command panic, also with -c and init --force (C81_broken_refuted); stopping init --force between truncating and writing loses the settings (C81_init_crash_refuted).",
 "C82": "C82_types_partial: every declaration is one of the database, for all dialects, Go types and columns, except five list types of PostgreSQL (C82_pg_unknown_refuted: blob, double[], text[{{len}}]) and arrays without a declared size (C82_array_refuted). C82_null_partial, C82_default: NOT NULL and defaults. C82_string, C82_rune, C82_bytes, C82_float32, C82_float64_partial, C82_time, C82_byte, C82_int_lists_partial: exactly which values are kept. Violated: NULL is always allowed for strings in MySQL and for everything in PostgreSQL (C82_null_refuted); texts over 255 characters (C82_string_refuted); bytes above 9 in CHAR(1) (C82_byte_refuted); float64 in FLOAT (C82_float64_refuted); times in MySQL keep whole seconds before 2038 (C82_time_refuted); lists of int, uint, uint16, uint32, uint64 in PostgreSQL (C82_int_lists_refuted).",
 "C83": "sound_partial: a row that the database chooses for the written condition is always one asked for, NULLs included. exact_partial: the converse where no NULL is among the values given and the cells compared. query_partial, query_one_partial, delete_partial, update_partial, delete_all carry this to whole statements and tables. Missing: NULL (nil_refuted: Equal and In with nil never find NULL; negation_refuted: NotEqual, NotIn and NotBetween leave rows with NULL out; not_in_nil_refuted: one nil among the values of NotIn empties the answer), empty groups and empty In (C30), group by, and update or delete with order or limit (C32).",
 "C84": "mysql: exactly the columns of the table of the current database, in order, with their contents. pg_partial: the same for PostgreSQL when no other schema has a table of that name. types_partial: for which Go types the type shown by PostgreSQL's catalogue is the text the dialect declares (an equivalence for every Go type of the dialect). failure: when the query fails or its rows break off, nothing is written. no_database: MySQL without a database is an error. Missing: PostgreSQL reads the columns of all schemas (schemas_refuted), so that a missing table is not created when another schema has one like it (missed_refuted); int64, floats, rune, byte and all lists look changed for ever (types_refuted). The reading of the index catalogue is dead code.",
 "C85": "Proved for all models, keys and existing tables on the text of the migration, read by the independent reader of C80: in MySQL every table is created; in PostgreSQL all are created exactly when no two keys have the same digest. Refuted: in PostgreSQL two tables whose keys have the same column names (for instance id) cannot both be created, because the name of the key does not depend on the table; keys [\"a,b\"] and [\"a\",\"b\"] clash as well. Only the CREATE TABLE statement is executed here; the ALTER TABLE that follows it is C49.",
 "C86": "Proved for every batch, table content and comparison of values on the text and arguments of the statements, read by the reader of SpecSql.v and executed by the INSERT of SpecConflict.v (written from the manuals). PostgreSQL: whenever the statement succeeds the table is as expected and the rows come back in order; it succeeds exactly when no two records have the same key (key as the only unique index). MySQL: it always succeeds (key as the only unique index). Refuted: two records with the same key make PostgreSQL refuse the batch; UpsertOne with do nothing reports an error when the record is stored already (no row to scan); with a second unique index MySQL may change the row of another key and store nothing under the key of the record. Missing: what C26 and C27 miss (columns that are not written, quoted composite keys on PostgreSQL, custom conflict columns), tables with nothing to update.",
 "C87": "Proved end to end (statement text, its reading, the rows a database chooses, scanning into fields) for every condition, order, limit, table content and conversion when whole records are asked for, and for finding and locking by key, with the generated statement or the fallback. Refuted: when columns are selected, fields are filled by position and not by name (C87_select_refuted), and fewer or more columns than the model has make every query with a result fail (C87_select_count_refuted). Missing: GROUP BY, other tables, OFFSET without LIMIT and empty groups (refuted in C32), NULL in conditions (C83), streams that break off (refuted in C38), lock modes on SQLite (refuted in C29).",
 "C88": "Statements executed on a table with a state (rows, next default values), then read back. PostgreSQL: Insert and Upsert leave each record equal to its row; InsertOne adds one row made of the record and the database's values, which the record then holds (generated key included). MySQL/SQLite: the generated key reaches the record if the field's type has room for it. Refuted: DO NOTHING (the first record becomes the second), keys that do not fit the field (truncated silently), a key hidden by a field of the outer struct (another field is overwritten). Missing: bulk inserts with columns left to the database (C25), streams that break off (C38).",
 "C89": "By induction on the calls, with the invariant that the rows hold the map: replies_partial (each reply of each call of any history), table_partial (the rows at the end), found_partial (what was inserted is found). Outages between calls included. With Insert of many records, UpsertOne and Upsert as well: upserts_partial, upserted_table_partial, upserted_found_partial. For goroutines with any schedule: goroutines_partial. Missing: DO NOTHING, upserts in SQLite and UpsertOne with composite keys in MySQL (refuted at C26, C27, C86), columns written by the database or read-only (C18, C20), functions around columns (C19), other programs changing the table meanwhile.",
 "C90": "Generated models (Columns() returns a literal): on any heap the calls send what they send on lists, and change at most the cells after the slice of omitted fields within its capacity; none when that slice is full, for any sequence of calls. Refuted in general: with spare capacity the next cell of the caller's array becomes the key's name (for every heap, model and option), so overlapping options change the conflict target; a hand-written Columns() that returns one slice loses a column at each Insert. UpdateByPK's fallback and slices of values are not on the heap.",
 "C91": "Proved for all numbers of calls, models, heaps, growth policies and schedules when the room of a slice of omitted fields is not seen or shared by another call, in particular for options whose slices have no room. Missing, and refuted: one option slice with room shared by two calls, where a call sends an update of its own key. Only UpsertOne on PostgreSQL is cut into steps, and each append is one atomic step.",
 "C92": "Proved for embedded structs of the package at work: the outer struct is seen as generated for it when it can be written to, has a column to insert, and has no composite key beside a promoted PK. The method lookup of the model is Go's (shallowest, unique). Otherwise the code violates the property: a composite key is hidden by the PK of the embedded model (DeleteByPK deletes by it), a read-only struct inserts rows of the embedded model, a model of another package gives its table, columns and values, and a second run can differ from the first.",
 "C93": "A call builds its statement, sends it, reads the answer: at most one statement for each call, whatever the options. C93_one_at_a_time: strong linearizability (the order only grows at its end) for every schedule; C93_none_waits: progress. The database executes a statement as one step; records and option slices are not shared between goroutines (C91 says what happens then). With the database of C89 the map explains the replies: C89_goroutines_partial.",
 "C94": "moving_partial (and generated_partial for generated models): order, no key twice, nothing that stays is missed, the only possible error; growing_partial: no error when keys only come; ends_partial: the iteration ends when finitely many records are ever there; unchanged: the model is that of C35 and C36 when the table does not change. Refuted: the row after a page is deleted before the next page, then the iteration fails although the other rows are there (deleted_refuted). Missing: no cursor, conditions, orderings, composite keys outside PostgreSQL, pages of 65535 rows (refuted at C35).",
 "C95": "Proved for every outcome of every operation and every stop: only generated files change (missing: the file of C72_operator_file_refuted), failed opens, writes, closes and mkdirs are reported, the outputs after success, repair by a run without failures (full), and that a run without failures is the one of C72. Refuted: an old generated file that cannot be removed stays though success is reported; a directory that cannot be listed is passed over with success; a write that fails panics and leaves the beginning of the code.",
 "C96": "LockByPK takes a *sql.Tx but UpdateByPK a *sql.DB. With the update statement sent in the transaction by hand no update is lost, whatever the number of workers and the schedule, and there is no deadlock (C96_locked_partial, C96_no_deadlock). UpdateByPK while the record is locked waits for its own transaction forever (C96_update_db_refuted); after the commit, updates are lost (C96_commit_first_refuted). Not covered: shared locks, keys that the workers change, errors of the connection. SQLite: LockByPK always fails (C29). A refused statement ends the worker without a commit (C96_refused_partial); rolling back is left to the caller.",
 "C97": "Proved: every call takes connections one after the other and gives each back, also the page loop with calls in its body; the functions that read several rows even when a method panics; goroutines on a pool of any size can always be finished. Refuted: where a model's Addrs method panics, functions that read one row and the page loop lose the connection; goroutines that call UpdateByPK inside a transaction wait for ever when there are as many as connections. Panics of Scan methods inside database/sql are not modelled.",
 "C98": "Proved for every body that stays within its page, whatever it writes there, and for anything after slices.Clip (C98_modest_partial for any database, C98_fair_partial and C98_generated_partial with C94's guarantees), and for appends of none or at least two records to a full page (C98_append_partial). Refuted: page = append(page, x) overwrites the cursor, so the next page starts at x (C98_append_refuted); a body that appends the first record of its page loops for ever (C98_endless_refuted).",
 "C99": "Proved: records of pages keep their rows until the end of the iteration (C99_pages); a caller's record that shares no struct with columns with the cursor stays as it is (C99_records_partial), also the cursor itself when none of its columns is behind a pointer that is not nil (C99_cursor_partial). Refuted: the columns of the cursor, and of its copies, that are in a struct behind a pointer are overwritten with the row of the database (C99_cursor_refuted). One level of structs; columns of pointer type: C69.",
 "C100": "Proved: a list of numbers is a JSON array of as many numbers, each the decimal with the asked number of digits nearest to the element, halves to the even digit (C100_nearest_partial); elements with no more digits than asked come out as they are (C100_exact_partial), so a precision of 1074 loses nothing of any float64 (C100_enough_partial); elements in order give numbers in order, whatever the precision (C100_order_partial); lists with one text differ in no element by more than a unit of the last digit printed (C100_close_partial). Refuted: without a precision the fraction of every element is lost, so lists that differ have one text (C100_fraction_refuted); a list with an infinity or a NaN anywhere gives a text that is not JSON (C100_not_json_refuted). Negative precisions (the shortest text) are not modelled; the fixed point format of strconv is modelled as one exact rounding.",
 "C101": "Proved: for times of the years 0 to 9999 in zones of whole minutes the text is a JSON array of the RFC 3339 texts of the times to the second (C101_seconds_partial), and of the times themselves when they have no fraction (C101_exact_partial). TimeScanner reads the strings back as these times (C101_back_partial), and lists that differ in more than fractions have texts that differ (C101_apart_partial). Refuted: lists that differ in fractions of seconds have one text (C101_fraction_refuted); in a zone with seconds the string is that of another time (C101_zone_refuted); a year of five digits gives no RFC 3339 text (C101_year_refuted). Years before 0 are not modelled.",
 "C102": "Proved: texts are stored byte by byte and NULL as nothing, strict or not; a strict scanner refuses other values and leaves the field alone, and without strictness an integer is stored as its decimal text and a boolean as true or false (C102_string_partial); texts that differ are read as fields that differ (C102_apart). The texts of floats and times are those of strconv and time, left abstract."
}
{"id": "C01", "title": "String arrays round-trip", "statement": "Writing a string array with Value and reading the text back with Scan yields exactly the same list of strings, for both the PostgreSQL ({...}) and the JSON-style ([...]) encodings; a nil slice is written as NULL and NULL is read back as nil.", "quantifier": "every list of byte strings, any length, any bytes (quotes, backslashes, braces, commas, empty strings, the text NULL)", "why_tests_cant": "Needs every byte string: the escaping and the hand-written parser must agree on all inputs, tests sample a few.", "anchors": ["sequel/driver/postgres/pgtype/string_array.go StringArray.Value/Scan", "sequel/driver/postgres/pgtype/array.go parseArray, appendArrayQuotedBytes", "sequel/sqltype/string_slice.go StringSlice"]}
{"id": "C02", "title": "Byte-slice arrays round-trip", "statement": "Writing an array of byte slices with Value and reading it back with Scan yields the same bytes for every element.", "quantifier": "every list of byte slices", "why_tests_cant": "All byte values and all lengths; hex and escaping must compose with the array parser.", "anchors": ["sequel/driver/postgres/pgtype/byte_array.go ByteaArray.Value/scanBytes, parseBytea"]}
{"id": "C03", "title": "Signed integer arrays round-trip", "statement": "For every signed integer element type, writing the array and reading it back yields the same list.", "quantifier": "every list of in-range integers of each width (8, 16, 32, 64 bits)", "why_tests_cant": "2^64 element values times unbounded lengths.", "anchors": ["sequel/driver/postgres/pgtype/int_array.go", "sequel/driver/postgres/pgtype/array.go intArrayValue", "sequel/sqltype/int_slice.go"]}
{"id": "C04", "title": "Unsigned integer arrays round-trip", "statement": "For every unsigned integer element type, writing the array and reading it back yields the same list.", "quantifier": "every list of in-range unsigned integers of each width, including values of 2^63 and above", "why_tests_cant": "The failing region is a half of the value space no example touches unless chosen on purpose.", "anchors": ["sequel/driver/postgres/pgtype/uint_array.go", "sequel/driver/postgres/pgtype/array.go uintArrayValue", "sequel/driver/postgres/pgtype/int_array.go scanBytes", "sequel/sqltype/uint_slice.go scanUBytes"]}
{"id": "C05", "title": "Boolean arrays round-trip", "statement": "Writing a boolean array with Value and reading it back yields the same list; anything that is not t or f is rejected.", "quantifier": "every list of booleans and every input text", "why_tests_cant": "Unbounded lists and arbitrary input text.", "anchors": ["sequel/driver/postgres/pgtype/bool_array.go", "sequel/sqltype/bool_slice.go"]}
{"id": "C06", "title": "Scanning an integer array never changes a value", "statement": "If scanning an integer array succeeds, every element stored equals the decimal number in the text; numbers that do not fit the element type are reported as errors.", "quantifier": "every input text and every element width", "why_tests_cant": "Silent truncation only shows on out-of-range input.", "anchors": ["sequel/driver/postgres/pgtype/int_array.go scanBytes", "sequel/sqltype/int_slice.go scanBytes", "sequel/sqltype/uint_slice.go scanUBytes"]}
{"id": "C07", "title": "Scanning an array never panics", "statement": "Scanning any text into any array or slice type returns a value or an error; it never panics (no index out of range, no division by zero).", "quantifier": "every byte string", "why_tests_cant": "The parser is goto-based with index arithmetic and a modulo; only all inputs settle it.", "anchors": ["sequel/driver/postgres/pgtype/array.go parseArray, scanLinearArray", "sequel/sqltype/string_slice.go parseArray"]}
{"id": "C08", "title": "A failed array scan leaves the destination untouched", "statement": "When Scan returns an error the destination slice still holds its previous value.", "quantifier": "every previous value, every erroneous text, every array type", "why_tests_cant": "Needs all error positions in all inputs.", "anchors": ["sequel/driver/postgres/pgtype/*_array.go scanBytes", "sequel/sqltype/*_slice.go scanBytes"]}
{"id": "C09", "title": "JSON-style slices are valid JSON", "statement": "The text that the JSON-style slice types write (their MySQL column type is JSON) is a valid JSON array.", "quantifier": "every list of elements of each supported type", "why_tests_cant": "Every byte string must be escaped as JSON demands.", "anchors": ["sequel/sqltype/bool_slice.go", "sequel/sqltype/string_slice.go appendArrayQuotedBytes", "sequel/sqltype/int_slice.go intSliceValue", "sequel/sqltype/uint_slice.go"]}
{"id": "C10", "title": "PostgreSQL string quoting is faithful and injection-safe", "statement": "The literal produced by pgutil.Quote, read by PostgreSQL's E'...' lexical rules, denotes exactly the original bytes and the literal ends exactly where Quote ended it, whatever follows.", "quantifier": "every byte string and every following text", "why_tests_cant": "Injection safety is a statement about all inputs.", "anchors": ["sequel/driver/postgres/pgutil/pgutil.go Quote"]}
{"id": "C11", "title": "Integer column scanners never change a value", "statement": "Scanning a database value into an integer field either stores that exact value or reports an error, whichever representation (int64 or text) the driver delivers.", "quantifier": "every int64, every text, every signed and unsigned width", "why_tests_cant": "The two source representations take different code paths; the failing values are the ones outside the width.", "anchors": ["sequel/encoding/int.go signedIntScanner.Scan", "sequel/encoding/uint.go"]}
{"id": "C12", "title": "Fixed-size byte arrays are fully overwritten by a scan", "statement": "After a successful scan into [N]byte the array holds the source bytes followed by zeros, independent of what it held before; NULL zeroes it; longer input is an error.", "quantifier": "every N, every previous content, every source", "why_tests_cant": "Depends on all previous contents.", "anchors": ["sequel/encoding/byte_array.go"]}
{"id": "C13", "title": "Fixed-size rune arrays hold the scanned text", "statement": "After a successful scan into [N]rune the array holds the code points of the source text followed by zeros, independent of what it held before and of whether the driver delivered string or []byte; NULL zeroes it.", "quantifier": "every N, every previous content, every source text", "why_tests_cant": "Needs multi-byte text and stale contents.", "anchors": ["sequel/encoding/rune_array.go"]}
{"id": "C14", "title": "Boolean scanning agrees with the stored value", "statement": "Scanning a boolean-typed value gives true exactly for the true representations (non-zero integer, true text) and false for the false ones.", "quantifier": "every int64, bool and text source", "why_tests_cant": "Every source value matters.", "anchors": ["cmd/sqlgen/internal/sqltype/bool.go Bool.Scan", "sequel/encoding/bool.go"]}
{"id": "C15", "title": "List marshalers emit JSON that denotes the list", "statement": "The text emitted by the Marshal*List helpers is valid JSON and, read as JSON, denotes exactly the list passed in.", "quantifier": "every list of strings, integers, unsigned integers, booleans", "why_tests_cant": "All strings, including control and non-ASCII bytes.", "anchors": ["sequel/encoding/marshaler.go"]}
{"id": "C16", "title": "Columns, values and scan destinations line up", "statement": "For every generated model, the scan destinations are listed in the order of the columns, one per column, and the values are exactly those of the insertable columns in column order.", "quantifier": "every struct the generator accepts (any fields, embedded structs, tags, keys, read-only and auto-increment flags) whose names are ASCII (other names: C23), every naming convention, every dialect, quoted identifiers or not", "why_tests_cant": "Alignment must hold for every struct shape, not only the golden files.", "anchors": ["cmd/sqlgen/codegen/generate.go buildValuer, buildScanner, generateModels", "cmd/sqlgen/internal/compiler/compiler.go InsertColumns"]}
{"id": "C17", "title": "Single-row insert binds each column to its own value", "statement": "The generated insert statement, read as SQL, names every insertable column exactly once and binds each to the value of the same field; generated (auto-increment) and read-only columns are not named.", "quantifier": "every struct the generator accepts whose names are ASCII (other names: C23), every naming convention, every dialect, every SQL functions configured for types that read as one expression around their argument, all field values", "why_tests_cant": "Placeholder numbering against argument order for every table shape.", "anchors": ["cmd/sqlgen/codegen/generate.go buildInsertOne, sqlValuer"]}
{"id": "C18", "title": "Multi-row placeholders are numbered without gap or overlap", "statement": "For PostgreSQL the placeholders emitted for rows 0..n-1 are exactly $1..$(n*c) in order, each once.", "quantifier": "every number of rows and columns", "why_tests_cant": "Unbounded rows.", "anchors": ["cmd/sqlgen/codegen/generate.go InsertPlaceholders emission (230-246)"]}
{"id": "C19", "title": "Find-by-key selects all columns by the record's own key", "statement": "The generated find statement, read as SQL, selects the columns in the order of the scan destinations and its condition compares each key column with that key field's value.", "quantifier": "every table with a key, every dialect", "why_tests_cant": "Every key shape: single, composite, auto-increment with extra keys.", "anchors": ["cmd/sqlgen/codegen/generate.go buildFindByPK"]}
{"id": "C20", "title": "Update-by-key binds each column and key to its own value", "statement": "The generated update statement, read as SQL, assigns to each updated column its own field's value and compares each key column with its own field's value; the arguments are exactly as many as the highest placeholder.", "quantifier": "every table with a key and at least one non-key column, every dialect", "why_tests_cant": "Wrong numbering shows only for particular combinations of read-only / auto-increment / key columns.", "anchors": ["cmd/sqlgen/codegen/generate.go buildUpdateByPK"]}
{"id": "C21", "title": "Update-by-key never writes key, read-only or auto-increment columns", "statement": "No key, read-only or auto-increment column is assigned by the generated update, and every other column is.", "quantifier": "every struct the generator accepts whose names are ASCII (other names: C23), every naming convention, every dialect, every SQL functions configured for types that read as one expression around their argument", "why_tests_cant": "Every combination of flags.", "anchors": ["cmd/sqlgen/internal/compiler/compiler.go ColumnsWithoutPK", "cmd/sqlgen/codegen/generate.go buildUpdateByPK"]}
{"id": "C22", "title": "Key metadata names the same columns as the column list", "statement": "The key name(s) and position(s) reported by a generated model identify, in its column list, exactly the key columns: columns[pos] = name.", "quantifier": "every table with a key, quoting of identifiers on or off", "why_tests_cant": "Depends on quoting configuration and key positions.", "anchors": ["cmd/sqlgen/codegen/generate.go buildCompositeKeys, generateModels (161-176)"]}
{"id": "C23", "title": "Generated string literals denote the intended SQL text", "statement": "The Go string literal the generator emits for a SQL text, read by the Go compiler, denotes exactly that SQL text.", "quantifier": "every SQL text (identifiers with any characters)", "why_tests_cant": "All identifiers, including non-ASCII and quote characters.", "anchors": ["cmd/sqlgen/codegen/generate.go Quote"]}
{"id": "C24", "title": "Quoted identifiers denote the intended name", "statement": "The identifier the dialect emits, read by that database's lexical rules, is a single identifier denoting the given name.", "quantifier": "every name, every dialect", "why_tests_cant": "All characters, quoting characters included.", "anchors": ["cmd/sqlgen/codegen/dialect/mysql/mysql.go QuoteIdentifier", "cmd/sqlgen/codegen/dialect/postgres/postgres.go", "cmd/sqlgen/codegen/dialect/sqlite/sqlite.go"]}
{"id": "C25", "title": "Bulk insert binds each row and column to its own value", "statement": "Insert of a list of records executes one statement that, read as SQL, inserts one row per record, in order, in which each named column is bound to that record's own field value; all insertable columns are named.", "quantifier": "every list length, every model shape produced by the generator, every dialect", "why_tests_cant": "Rows times columns times flags.", "anchors": ["cmd/sqlgen/codegen/templates/db.go.tpl Insert", "cmd/sqlgen/codegen/generate.go buildValuer"]}
{"id": "C26", "title": "Upsert binds each row and column to its own value", "statement": "Upsert of one or many records, read as SQL, proposes one row per record in which each named column is bound to that record's own field value, and never panics.", "quantifier": "every list length, model shape, option set and dialect", "why_tests_cant": "Rows times columns times options.", "anchors": ["cmd/sqlgen/codegen/templates/db.go.tpl UpsertOne, Upsert"]}
{"id": "C27", "title": "Upsert updates exactly the non-key, non-omitted columns", "statement": "The update part of an upsert assigns exactly the columns that are neither key, nor omitted by the caller, each from its own proposed value, and is a well-formed list.", "quantifier": "every model shape and every set of omitted columns", "why_tests_cant": "Every subset of columns.", "anchors": ["cmd/sqlgen/codegen/templates/db.go.tpl UpsertOne, Upsert"]}
{"id": "C28", "title": "Hand-written keyed models are updated correctly", "statement": "UpdateByPK on a model without a generated update statement binds each column and key to its own value, with as many arguments as placeholders.", "quantifier": "every model with a single or composite key, every dialect", "why_tests_cant": "Every column count and key position.", "anchors": ["cmd/sqlgen/codegen/templates/db.go.tpl UpdateByPK"]}
{"id": "C29", "title": "Keyed find, delete and lock address exactly the record's key", "statement": "FindByPK, DeleteByPK and LockByPK on a keyed model without generated statements produce a statement whose condition compares each key column with that record's key value, with as many arguments as placeholders.", "quantifier": "every model with a single or composite key, every dialect, every lock mode", "why_tests_cant": "Every key count.", "anchors": ["cmd/sqlgen/codegen/templates/db.go.tpl FindByPK, DeleteByPK, LockByPK"]}
{"id": "C30", "title": "Composed conditions read back as composed", "statement": "The text written by a where-condition composed from the operators, read by a SQL expression grammar, is exactly the composed condition: same operators, same nesting, same columns, and each placeholder bound to the value given at that place.", "quantifier": "every finite composition of And/Or and the comparison operators", "why_tests_cant": "Unbounded nesting.", "anchors": ["cmd/sqlgen/codegen/templates/operator.go.tpl", "cmd/sqlgen/codegen/templates/db.go.tpl SqlStmt.Var/Vars"]}
{"id": "C31", "title": "Placeholders and arguments stay in step", "statement": "After any sequence of writes to a statement, the k-th placeholder it handed out refers to the k-th argument, and the number of arguments equals the number of placeholders handed out; no operation panics.", "quantifier": "every sequence of Var/Vars/WriteString/WriteByte/Reset operations", "why_tests_cant": "Every history.", "anchors": ["cmd/sqlgen/codegen/templates/db.go.tpl SqlStmt"]}
{"id": "C32", "title": "Query and exec statements are well-formed and complete", "statement": "QueryStmt, QueryOneStmt and ExecStmt produce a statement that, read as SQL, contains exactly the requested projection, table, condition, grouping, ordering, limit and offset.", "quantifier": "every combination of the optional parts", "why_tests_cant": "2^7 combinations times unbounded lists.", "anchors": ["cmd/sqlgen/codegen/templates/db.go.tpl QueryStmt, QueryOneStmt, ExecStmt"]}
{"id": "C33", "title": "Debug formatting substitutes each placeholder with its own argument", "statement": "Formatting a statement with %+v replaces the k-th placeholder with the literal of the k-th argument and changes nothing else; it never panics.", "quantifier": "every statement text and argument list", "why_tests_cant": "All texts, including identifiers containing placeholder characters.", "anchors": ["cmd/sqlgen/codegen/templates/db.go.tpl SqlStmt.Format, strf"]}
{"id": "C34", "title": "A pooled statement is always empty and exclusively owned", "statement": "Whatever the history of acquire, use and release by any interleaving of users, an acquired statement or string builder is empty, is held by no one else, and text or arguments obtained from it before release never change afterwards.", "quantifier": "every interleaving of acquire/write/read/release operations of any number of users", "why_tests_cant": "Every schedule and history.", "anchors": ["sequel/strpool/pool.go", "cmd/sqlgen/codegen/templates/db.go.tpl AcquireStmt, ReleaseStmt", "cmd/sqlgen/codegen/generate.go buildUpdateByPK (659, 668)"]}
{"id": "C35", "title": "Forward pagination visits every row exactly once, in order", "statement": "Iterating Next over an unchanging table yields pages that, concatenated, are exactly the rows from the cursor on in the requested order, each once; every page but the last is full; iteration ends.", "quantifier": "every table content, every page size, every start cursor, every ordering", "why_tests_cant": "Every table size against page size, boundaries and duplicates.", "anchors": ["cmd/sqlgen/codegen/templates/db.go.tpl Pager.Next"]}
{"id": "C36", "title": "Backward pagination visits every row exactly once", "statement": "The same for Prev: pages concatenated are exactly the rows from the cursor backwards, each once; iteration ends.", "quantifier": "every table content, every page size, every start cursor, every ordering", "why_tests_cant": "As above.", "anchors": ["cmd/sqlgen/codegen/templates/db.go.tpl Pager.Prev"]}
{"id": "C37", "title": "Pagination statements are well-formed", "statement": "The statement issued by Next and Prev is well-formed (condition present and joined, parentheses balanced) and its placeholders are in the order of its arguments.", "quantifier": "every combination of condition, ordering, cursor presence and key shape", "why_tests_cant": "Combinations.", "anchors": ["cmd/sqlgen/codegen/templates/db.go.tpl Pager.Next, Pager.Prev"]}
{"id": "C38", "title": "A failing result stream is reported", "statement": "If the database fails while rows are being read, the call reports an error; it never returns a shortened result as success.", "quantifier": "every number of rows delivered before the failure", "why_tests_cant": "Every crash point.", "anchors": ["cmd/sqlgen/codegen/templates/db.go.tpl QueryStmt, Insert, Upsert, Pager"]}
{"id": "C39", "title": "Returned rows are scanned into the records they belong to", "statement": "After a PostgreSQL insert or upsert that returns rows, every record holds the row stored for it.", "quantifier": "every list of records, every subset of records skipped by the database because of a conflict", "why_tests_cant": "Every subset of conflicts.", "anchors": ["cmd/sqlgen/codegen/templates/db.go.tpl Insert, Upsert (RETURNING loop)"]}
{"id": "C40", "title": "An empty batch touches nothing", "statement": "Insert and Upsert of an empty list execute no statement and report zero affected rows.", "quantifier": "every model type", "why_tests_cant": "Universal over models.", "anchors": ["cmd/sqlgen/codegen/templates/db.go.tpl Insert, Upsert", "sequel/result.go"]}
{"id": "C41", "title": "Columns follow struct declaration order", "statement": "The columns of a parsed struct are its exported, non-excluded fields in declaration order, with embedded struct fields in place of the embedded field.", "quantifier": "every struct shape with any nesting of embedded structs and grouped field declarations", "why_tests_cant": "Every shape.", "anchors": ["cmd/sqlgen/internal/compiler/parser.go Parse (164-346)"]}
{"id": "C42", "title": "Excluded fields produce no column", "statement": "A field tagged \"-\" and everything inside it contributes no column.", "quantifier": "every struct shape", "why_tests_cant": "Every nesting.", "anchors": ["cmd/sqlgen/internal/compiler/parser.go Parse", "cmd/sqlgen/internal/compiler/tag.go parseTag"]}
{"id": "C43", "title": "Accepted structs satisfy the key rules", "statement": "A struct is accepted only if its column names are pairwise distinct, it has at most one auto-increment column, and no key column is read-only.", "quantifier": "every field list and tag combination", "why_tests_cant": "Every combination.", "anchors": ["cmd/sqlgen/internal/compiler/parser.go Parse (376-452)"]}
{"id": "C44", "title": "Struct tags are parsed faithfully", "statement": "The column name is the text before the first comma, options are recognised in any order and case, and unknown options are ignored.", "quantifier": "every tag text", "why_tests_cant": "All texts.", "anchors": ["cmd/sqlgen/internal/compiler/tag.go parseTag, hasOpts"]}
{"id": "C45", "title": "Renaming produces valid and stable names", "statement": "Snake-case renaming of an identifier yields only lower-case letters, digits and single underscores between words, is idempotent, and never empties a name.", "quantifier": "every identifier", "why_tests_cant": "All identifiers.", "anchors": ["cmd/sqlgen/internal/strfmt/strfmt.go"]}
{"id": "C46", "title": "Configuration merge is complete and idempotent", "statement": "Merging a configuration into the default gives each setting the user's value when set and the default otherwise, leaves no required setting empty, and merging twice equals merging once.", "quantifier": "every pair of configurations", "why_tests_cant": "Every subset of set fields.", "anchors": ["cmd/sqlgen/codegen/config.go Merge, initIfEmpty"]}
{"id": "C47", "title": "Imported packages get distinct names", "statement": "After any sequence of imports, distinct package paths have distinct names, importing the same path again yields the same name, and no name collides with the current package.", "quantifier": "every import sequence", "why_tests_cant": "Every history.", "anchors": ["cmd/sqlgen/codegen/package.go Import, newAliasIfExists"]}
{"id": "C48", "title": "Path patterns select exactly the intended files", "statement": "A folder pattern selects exactly the files below that folder; a file pattern exactly that file.", "quantifier": "every path", "why_tests_cant": "All paths.", "anchors": ["cmd/sqlgen/codegen/path_matcher.go"]}
{"id": "C49", "title": "Migrating up brings the table to the model", "statement": "After the generated up-migration the table's columns are exactly the model's columns with the model's types and nullability; the down-migration restores the previous table.", "quantifier": "every existing table and every model", "why_tests_cant": "Every pair of schemas.", "anchors": ["cmd/sqlgen/codegen/dialect/mysql/migration.go Migrate", "cmd/sqlgen/codegen/dialect/postgres/migration.go Migrate"]}
{"id": "C50", "title": "Dialects resolve to the last registration", "statement": "Looking up a dialect returns the implementation registered last under that name, and an unregistered name is reported.", "quantifier": "every history of registrations", "why_tests_cant": "Every history.", "anchors": ["cmd/sqlgen/codegen/dialect/dialect.go RegisterDialect, GetDialect"]}
{"id": "C51", "title": "Nested pointers are safe to scan into and read from", "statement": "Scan destinations allocate every nil parent pointer before any child is addressed, and reading a value below a nil pointer gives NULL instead of panicking.", "quantifier": "every pointer path shape and every subset of nil pointers", "why_tests_cant": "Every path depth.", "anchors": ["cmd/sqlgen/codegen/generate.go buildScanner, getter emission (256-280)", "cmd/sqlgen/internal/compiler/compiler.go GoPtrPaths"]}
{"id": "C52", "title": "Column types hold every value of the Go type", "statement": "The SQL column type chosen for a Go integer type has a range that contains the Go type's range.", "quantifier": "every Go integer type, every dialect, every value", "why_tests_cant": "All values.", "anchors": ["cmd/sqlgen/codegen/dialect/mysql/column_type.go intDataType", "cmd/sqlgen/codegen/dialect/postgres/column_type.go intDataType", "cmd/sqlgen/codegen/dialect/sqlite/column_type.go"]}
{"id": "C53", "title": "Generated key lookups find what was inserted", "statement": "After the generated insert of a record into a table holding no row with its key, the generated find by the same key selects exactly that row; after the generated update the row holds the new values and all other rows are unchanged.", "quantifier": "every table definition without database-generated columns, every table content, every record", "why_tests_cant": "Composition of several statements over all contents.", "anchors": ["cmd/sqlgen/codegen/generate.go buildInsertOne, buildFindByPK, buildUpdateByPK"]}
{"id": "C54", "title": "Scanned fields do not change when the driver reuses its buffers", "statement": "After a row has been scanned, later activity of the driver (which owns the memory of the []byte values it hands to Scan) does not change the record's text and byte fields.", "quantifier": "every later content of the driver's buffers", "why_tests_cant": "Depends on the driver's memory reuse, which fakes and small result sets do not show.", "anchors": ["sequel/encoding/string.go strScanner.Scan", "cmd/sqlgen/codegen/dialect/mysql/column_type.go entry []byte"]}
{"id": "C55", "title": "Slices stored in a MySQL JSON column read back", "statement": "A slice written to a MySQL JSON column and returned by the server in its normalised spelling (a space after every comma, JSON escapes) is read back as the same list.", "quantifier": "every list of every supported element type", "why_tests_cant": "Tests feed back the text the writer produced, not the text the server prints.", "anchors": ["sequel/sqltype/string_slice.go parseArray", "sequel/sqltype/int_slice.go", "cmd/sqlgen/codegen/dialect/mysql/column_type.go entries []string, []int"]}
{"id": "C56", "title": "Float arrays round-trip", "statement": "Writing a float array and reading it back yields the same values in both encodings, assuming strconv's shortest formatting parses back.", "quantifier": "every list of floats", "why_tests_cant": "Unbounded lists; every formatting of a float must survive the array parser (signs, Inf, NaN).", "anchors": ["sequel/sqltype/float_slice.go", "sequel/driver/postgres/pgtype/float_array.go"]}
{"id": "C57", "title": "Integer fields survive the generated valuer and scanner", "statement": "For every Go integer type, the value passed to the database by the generated valuer and scanned back by the generated scanner is the original value.", "quantifier": "every value of every integer type up to 64 bits, value and pointer fields", "why_tests_cant": "The unsigned types go through int64; only the upper half of the range exercises the wrap-around.", "anchors": ["cmd/sqlgen/codegen/dialect/mysql/column_type.go entries int..uint32", "sequel/encoding/int.go", "sequel/encoding/uint.go"]}
{"id": "C58", "title": "A failed column scan leaves the field untouched", "statement": "When a column scanner reports an error, the field (value or pointer) it was given still holds what it held before.", "quantifier": "every scanner, every previous field value, every driver value", "why_tests_cant": "Needs every error path of every scanner for every previous value.", "anchors": ["sequel/encoding/int.go", "sequel/encoding/uint.go", "sequel/encoding/bool.go", "sequel/encoding/string.go", "sequel/encoding/byte_array.go", "sequel/encoding/rune_array.go"]}
{"id": "C59", "title": "Operators honour a column's SQL value function", "statement": "Comparing with, or assigning to, a column whose clause carries a SQL value function writes the placeholder through that function, as the generated insert and update statements do.", "quantifier": "every operator, composition, column and value", "why_tests_cant": "All operators times all compositions.", "anchors": ["sequel/clause.go SQLColumn", "cmd/sqlgen/codegen/templates/operator.go.tpl"]}
{"id": "C60", "title": "Annotations of a struct are honoured", "statement": "A struct whose doc comment contains +sql:ignore yields no generated code, and one whose comment contains +sql:readonly yields a read-only table.", "quantifier": "every comment text, every struct shape, declared alone or in a group", "why_tests_cant": "Every combination of comment and shape.", "anchors": ["cmd/sqlgen/internal/compiler/parser.go annotationRegexp (30), Parse (360-383)"]}
{"id": "C61", "title": "Parsing terminates", "statement": "Parsing a Go package that compiles comes to an end.", "quantifier": "every package, including structs that embed pointers to themselves", "why_tests_cant": "Every nesting of types.", "anchors": ["cmd/sqlgen/internal/compiler/parser.go Parse (160-346)"]}
{"id": "C62", "title": "Every exported struct of a matched file is seen", "statement": "Every exported struct type defined in a matched file is considered for generation, wherever its declaration stands.", "quantifier": "every sequence of type declarations, grouped or not", "why_tests_cant": "Every grouping.", "anchors": ["cmd/sqlgen/internal/compiler/parser.go Parse (63-131)"]}
{"id": "C63", "title": "Camel and Pascal renaming", "statement": "Renaming a Go name to camelCase or PascalCase yields only letters and digits, never an empty name for a non-empty one, and renaming the result again leaves it unchanged.", "quantifier": "every name, including non-ASCII ones", "why_tests_cant": "Every string.", "anchors": ["cmd/sqlgen/internal/strfmt ToCamelCase, ToPascalCase, toCamelInitCase"]}
{"id": "C64", "title": "Auto-increment columns are generated by the database", "statement": "A column marked as an auto-increment key is declared in the migration so that the database generates its values.", "quantifier": "every integer type, every dialect, nullable or not", "why_tests_cant": "Every combination of type and dialect, and every text of the declaration.", "anchors": ["cmd/sqlgen/codegen/dialect/mysql/column_type.go", "cmd/sqlgen/codegen/dialect/postgres/column_type.go intDataType", "cmd/sqlgen/codegen/dialect/sqlite/column_type.go"]}
{"id": "C65", "title": "Writing and reading a column use the same encoding", "statement": "For every field type, the code that is generated to write a column and the code that is generated to read it use the same encoding of the value: the type's own methods, the configured mapping, or the dialect's mapping for the same Go type.", "quantifier": "every type expression built from basic types, named types, structs, pointers, slices, arrays and aliases; every set of methods and configured mappings", "why_tests_cant": "There are infinitely many type expressions.", "anchors": ["cmd/sqlgen/codegen/tool.go columnDataType", "cmd/sqlgen/codegen/generate.go valuer, scanner, isBasicType"]}
{"id": "C66", "title": "Resolving a column's type terminates", "statement": "Finding the mapping of a field's type always ends, also for types that are defined in terms of themselves.", "quantifier": "every finite graph of type definitions, including recursive ones", "why_tests_cant": "Termination for every graph.", "anchors": ["cmd/sqlgen/codegen/tool.go columnDataType"]}
{"id": "C67", "title": "Times are read exactly", "statement": "Scanning a date or time text from a database into a time field or pointer stores exactly the time the text denotes, in its zone, with the fraction cut to nanoseconds; texts that denote no real time are refused and leave the field as it was; NULL gives the zero time or nil.", "quantifier": "every text, every calendar date and time, every zone, every kind of driver value and both kinds of field", "why_tests_cant": "The texts are infinite: every day of every year, any number of fraction digits, every zone, and every malformed text.", "anchors": ["sequel/encoding/time.go TimeScanner", "sequel/encoding/time.go parseTime"]}
{"id": "C68", "title": "Types with their own conversion get exactly what the database holds", "statement": "For a field or pointer whose type has its own text, binary or Scan conversion, the value delivered by the driver reaches that conversion unchanged (numbers, booleans and times as their usual text), the field afterwards holds what the conversion produced, NULL gives the zero value or nil, and a value written with the type's own conversion reads back.", "quantifier": "every type with such conversions, every behaviour of its methods, every driver value, values, pointers and nil pointers", "why_tests_cant": "The methods are the user's: the statement must hold for every one of them and every text.", "anchors": ["sequel/encoding/text.go textScanner.Scan, textValuer.Value", "sequel/encoding/pointer.go addrOfPtr.Scan", "sequel/types/binary.go", "cmd/sqlgen/codegen/generate.go addressed pointers"]}
{"id": "C69", "title": "Scanning does not change values held elsewhere", "statement": "Reading a row into a record changes only that record: a value that a pointer field pointed to before the scan, and that a copy of the record still points to, keeps its content.", "quantifier": "every record, every set of pointer columns and their scanners, every content of memory, every row", "why_tests_cant": "Sharing of pointers is arbitrary.", "anchors": ["sequel/encoding/int.go, uint.go, float.go, bool.go, string.go, time.go Scan", "sequel/encoding/text.go textScanner.Scan", "sequel/encoding/pointer.go addrOfPtr.Scan", "sequel/encoding/json.go jsonScanner.Scan"]}
{"id": "C70", "title": "JSON columns hold exactly the value", "statement": "A value written to a JSON column is stored as a JSON text of that value and reads back as that value; scanning a JSON text that denotes a value of the field's type stores exactly that value whatever the field held before; any other text is an error; NULL gives the zero value.", "quantifier": "every type built from integers, strings, booleans, any, pointers, slices, maps and structs, every value, every JSON text, every old content of the field", "why_tests_cant": "Types and JSON documents are nested without bound.", "anchors": ["sequel/encoding/json.go jsonValuer.Value, jsonScanner.Scan"]}
{"id": "C71", "title": "Float columns keep the number or say so", "statement": "Reading a float column stores the number the driver delivered, rounded at most once to the nearest value of the field's type; a value that a float32 or float64 field holds comes back unchanged from the column the generator declares for it; a number that the field or the column cannot hold is reported, not changed silently.", "quantifier": "every bit pattern of a float64, every 64-bit integer, every text under ParseFloat's contract, both widths, value and pointer fields, strict or not, the three dialects", "why_tests_cant": "There are 2^64 bit patterns, and rounding, subnormals and overflow differ between them.", "anchors": ["sequel/encoding/float.go float32Scanner.Scan, float64Scanner.Scan", "cmd/sqlgen/codegen/dialect/{mysql,postgres,sqlite}/column_type.go float32, float64"]}
{"id": "C72", "title": "A run of the generator touches only generated files, and can be stopped and repeated", "statement": "Whenever a run stops (finished, failed, or killed between two file operations), every file of the user has its old content; only the generated file of a package a source asks for, the database file and the operator file may differ. Running again after a stop ends with the same result and the same files as a run that was not stopped. After success each asked package has the code of its models, every model of every source included. After a failure the previously generated code is still there. The settings skip_empty and an absolute database directory mean what they say.", "quantifier": "every content of the disk, every list of sources, every settings, every parser and renderer whose answers do not depend on generated files, every point between two file operations", "why_tests_cant": "The crash points, the overlap of sources and the contents of the disk are unbounded.", "anchors": ["cmd/sqlgen/codegen/codegen.go Generate, parseGoPackage", "cmd/sqlgen/codegen/generate.go generateModels", "cmd/sqlgen/codegen/init.go renderTemplate", "cmd/sqlgen/internal/fileutil IsDirEmptyFiles"]}
{"id": "C73", "title": "Other packages are written by their names in generated expressions", "statement": "When the generator writes an expression or a type for a field (how it is read, how it is scanned, which type its getter returns), every package that the expression or the type mentions by its import path is written by the name it has in the generated file, names of the generated package itself stand without a qualifier, the package is imported under that name, and nothing else of the text changes.", "quantifier": "all import paths, types (basic, named, generic, pointers, slices, arrays, maps), expressions of the built-in and configured column types, fields, packages that are generated, and imports already present", "why_tests_cant": "the rewriting works by a regular expression and textual replacement on the finished expression; which texts it damages depends on every path, field name and earlier import, which golden files cannot enumerate", "anchors": ["cmd/sqlgen/codegen/expr.go Expr.Format", "cmd/sqlgen/codegen/expr.go importPkgIfNeeded", "cmd/sqlgen/codegen/expr.go pkgRegexp", "cmd/sqlgen/codegen/package.go Package.Import", "cmd/sqlgen/codegen/generate.go valuer, scanner, getOrValue"]}
{"id": "C74", "title": "A generated model can be used with the functions that are offered for it", "statement": "The methods generated for a model, together with those its author wrote, have different names, and the model is accepted by every function of the generated runtime that its declaration calls for: a model that is not read-only by the inserting functions, a model with a key by the functions that find, lock, update, delete, upsert and page by key, and every model by the querying functions.", "quantifier": "every struct declaration with ASCII names, every set of methods the author may already have written, every driver and every runtime function", "why_tests_cant": "Which methods are written depends on the combination of keys, generated keys, read-only flags, configured SQL functions, embedded structs and methods already there; tests compile a few combinations, and a missing or repeated method only shows as a compile error in the user's project.", "anchors": ["cmd/sqlgen/codegen/generate.go: generateModels, buildValuer, buildScanner, buildSqlColumns, buildInsertOne, buildFindByPK, buildUpdateByPK, valueFunc, LogError", "cmd/sqlgen/internal/compiler/compiler.go: Implements, PtrImplements, HasPK, InsertColumns, ColumnsWithoutPK", "cmd/sqlgen/codegen/templates/db.go.tpl: type parameters of InsertOne, Insert, UpsertOne, Upsert, FindByPK, UpdateByPK, DeleteByPK, LockByPK, Paginate, QueryStmt", "sequel/sequel.go: interfaces"]}
{"id": "C75", "title": "Values reach the database only as arguments", "statement": "The text of every statement the generated runtime sends is the same whatever the values in records, conditions, assignments and cursors are; the values are sent unchanged as arguments, in places that do not depend on them, so that no value can change what a statement means or whether it is sent.", "quantifier": "all calls of the inserting, upserting, finding, locking, updating, deleting, querying and paging functions, all drivers, all nested conditions, all values of any type", "why_tests_cant": "A test sends a few values and reads a few texts; that no value whatever can enter the text is a statement about all values and all nestings of conditions at once.", "anchors": ["cmd/sqlgen/codegen/templates/db.go.tpl: InsertOne, Insert, UpsertOne, Upsert, FindByPK, UpdateByPK, DeleteByPK, LockByPK, Pager.Prev, Pager.Next, QueryStmt, QueryOneStmt, ExecStmt, SqlStmt.Var, SqlStmt.Vars", "cmd/sqlgen/codegen/templates/operator.go.tpl", "cmd/sqlgen/codegen/generate.go: buildInsertOne, buildFindByPK, buildUpdateByPK"]}
{"id": "C76", "title": "The generated source declares the intended methods", "statement": "The Go source written for a struct, read as Go, is a list of method declarations and nothing else: for every method the documentation promises for the struct exactly one, in a fixed order, with the intended name, receiver, parameters and results. Its body returns the name of the table, the names, values, destinations, indices and keys of exactly the intended fields in the intended order, allocates every pointer on the way to a field before what is behind it, guards every getter behind a pointer, and its statements, as the database reads them, insert, select and update exactly the intended columns with the values of the intended fields.", "quantifier": "all structs with ASCII names, all nestings of embedded structs and pointers, all tags, drivers, settings, own methods of the user, and all configured types whose valuers, scanners and names are expressions in one line", "why_tests_cant": "The golden files of the tests fix the text for a handful of structs; that no name, type, tag or nesting makes the text mean something else, swallow a following method or fail to be read is a statement about all of them.", "anchors": ["cmd/sqlgen/codegen/generate.go: generateModels, buildCompositeKeys, buildSqlColumns, buildValuer, buildScanner, getOrValue, buildInsertOne, buildFindByPK, buildUpdateByPK, Quote, QuoteIdentifier, valuer, scanner", "cmd/sqlgen/internal/compiler/compiler.go: Parse"]}
{"id": "C77", "title": "A generated file imports each package under the name it uses", "statement": "The file written for a package, read as Go, is a package clause with the name of the package, at most one import declaration, and the methods of each of its models. Every package that the generated expressions mention is imported exactly once, and the file refers to it by the name that the expressions use; no two packages are referred to by the same name.", "quantifier": "all sets of models with ASCII names, all sequences of imported packages, paths and package names, in particular packages of the same name and packages whose name is not the last element of their path", "why_tests_cant": "Golden files have a few imports of well-behaved packages; which names are free depends on all packages seen before, and whether an alias may be left out depends on the path and on what the package calls itself.", "anchors": ["cmd/sqlgen/codegen/generate.go: generateModels, buildHeader", "cmd/sqlgen/codegen/package.go: Import, newAliasIfExists"]}
{"id": "C78", "title": "The expressions generated for a column compile and are taken by database/sql", "statement": "For every column of a model, the expression that the generated code passes as the value of the column is an expression of the Go language, is well typed in the generated file, and has a type that database/sql takes as an argument (a type with a method Value, a time, a basic value or bytes). The expression it passes for reading the column is well typed and something database/sql can scan into. This holds for columns of basic types, named types, types with methods of their own, pointers, slices, fixed arrays, maps and structs, for MySQL, SQLite and PostgreSQL.", "quantifier": "all programs (declared types, methods, packages), all column types, all dialects, all states of the import list", "why_tests_cant": "The expression is found by a walk over the type and a table of text templates; tests compile a few column types, while types nest without bound and the templates are only checked when somebody compiles the generated file.", "anchors": ["cmd/sqlgen/codegen/generate.go: valuer, scanner, getterFunc", "cmd/sqlgen/codegen/tool.go: columnDataType", "cmd/sqlgen/codegen/dialect/mysql/column_type.go", "cmd/sqlgen/codegen/dialect/postgres/column_type.go", "cmd/sqlgen/codegen/expr.go: Format", "sequel/encoding", "sequel/sqltype", "sequel/driver/postgres/pgtype"]}
{"id": "C79", "title": "A column is read in the form in which it is written", "statement": "For every column of a model, the expression that the generated code passes as the value of the column and the expression it passes for reading the column agree on the form of the value: both as a number, a boolean, a text, a time, JSON, the text of the type's own MarshalText/UnmarshalText, a list of the library, or through the type's own Value and Scan. A column never is written in one form and read in another.", "quantifier": "all programs (declared types, methods, packages), all column types whose methods come in pairs, all dialects, all states of the import list", "why_tests_cant": "The two expressions are chosen by two walks, one over the type of the value and one over the type of the field, and the two choices only meet in the database; tests write and read a few types.", "anchors": ["cmd/sqlgen/codegen/generate.go: valuer, scanner, getterFunc", "cmd/sqlgen/codegen/tool.go: columnDataType", "cmd/sqlgen/codegen/dialect/mysql/column_type.go", "cmd/sqlgen/codegen/dialect/postgres/column_type.go", "sequel/encoding"]}
{"id": "C80", "title": "Migration files say the statements that were meant", "statement": "The migration file written for a model consists of an Up and a Down section. Read as SQL by the target dialect, the Up section creates the table with exactly the columns, types, nullability, defaults and key of the model and then alters what is there, and the Down section takes the alterations back. Names and defaults of any content are read back as the same names and the same values; no name or default turns into SQL of its own.", "quantifier": "all table and column names, column types, defaults, primary keys and existing tables; MySQL, PostgreSQL and SQLite", "why_tests_cant": "The text is put together by concatenation of names, types, defaults and separators; whether it still parses as the intended statements depends on every character of every name and default and on which parts of the comparison are empty.", "anchors": ["cmd/sqlgen/codegen/dialect/mysql/migration.go Migrate", "cmd/sqlgen/codegen/dialect/postgres/migration.go Migrate", "cmd/sqlgen/codegen/dialect/sqlite/migration.go Migrate", "cmd/sqlgen/codegen/dialect/postgres/index.go", "cmd/sqlgen/codegen/dialect/dialect.go Column"]}
{"id": "C81", "title": "Commands use the settings the user gave and touch no file without consent", "statement": "sqlgen and sqlgen generate run with the settings of the first configuration file of the working directory, empty settings replaced by the documented values; sqlgen -c FILE runs with the settings of FILE. sqlgen init leaves an existing sqlgen.yml alone unless forced, writes only after every question was answered and the writing was confirmed, touches nothing but sqlgen.yml, and afterwards sqlgen runs with the answers. An unreadable file leads to an error message, and an interrupted init does not lose the old settings.", "quantifier": "all file systems, configuration files, answers, interruptions and crash points", "why_tests_cant": "There are four file names, two readings of the defaults and a merge field by field; which setting wins depends on every combination of files present and settings set.", "anchors": ["cmd/sqlgen/cmd.go rootCmd", "cmd/sqlgen/generate.go genCmd", "cmd/sqlgen/init.go runInitCommand", "cmd/sqlgen/codegen/config.go DefaultConfig, LoadConfigFrom, findCfgInDir", "cmd/sqlgen/codegen/init.go Init", "cmd/sqlgen/codegen/codegen.go Generate"]}
{"id": "C82", "title": "The column types a dialect gives exist and hold the values of the Go type", "statement": "For every Go type a dialect knows, the declaration its column type yields is one the database accepts: an existing type, NOT NULL exactly for the Go types that cannot be nil, and a default that is the zero value of the Go type. The column keeps every value of the Go type unchanged: every text up to the declared size, every 32 and 64 bit float, every instant, every byte and rune, every list of integers.", "quantifier": "all dialects, Go types, declared sizes, nullability and auto increment, all values of the Go types", "why_tests_cant": "The declarations are texts that only the database reads; a wrong type shows up for single values (a float with 25 bits, a byte above 9, the year 2038), not in a test that compares texts.", "anchors": ["cmd/sqlgen/codegen/dialect/mysql/column_type.go ColumnDataTypes, columnDataType, format", "cmd/sqlgen/codegen/dialect/postgres/column_type.go ColumnDataTypes, intDataType, columnDataType", "cmd/sqlgen/codegen/dialect/sqlite/column_type.go ColumnDataTypes, columnDataType", "cmd/sqlgen/codegen/dialect/dialect.go GoColumn"]}
{"id": "C83", "title": "Conditions choose the records they describe", "statement": "A condition built from the generated operators (Equal, NotEqual, In, NotIn, the comparisons, Between, NotBetween, Like, NotLike, IsNull, IsNotNull, nested And and Or) describes a set of records. QueryStmt returns only records of that set, all of them when neither limit nor offset is given, never more than the limit, and in the order asked for; QueryOneStmt returns one of them that none must precede, or nothing if there is none; a delete removes exactly the records of that set and an update changes exactly those records, giving the named columns the values given and leaving the other columns alone. nil is a value like others: Equal with nil finds NULL, NotEqual and NotIn keep the rows with NULL.", "quantifier": "every nesting of operators with every column and value, every table content with NULLs, every order, limit and offset, every dialect", "why_tests_cant": "Conditions nest without bound, table contents are unbounded, and unknown truth values mix with each operator differently", "anchors": ["cmd/sqlgen/codegen/templates/operator.go.tpl: And, Or, Equal, NotEqual, In, NotIn, GreaterThan, GreaterThanOrEqual, LessThan, LessThanOrEqual, Like, NotLike, IsNull, IsNotNull, Between, NotBetween", "cmd/sqlgen/codegen/templates/db.go.tpl: QueryStmt, QueryOneStmt, ExecStmt"]}
{"id": "C84", "title": "A migration compares with the columns the table has", "statement": "Before a migration is written, the columns of the model's table are read from the database. What is read are the columns of that table, all of them and no others, in their order, each with its name, type, nullability, default and lengths, whichever way the driver hands values over. A column whose declaration has not changed since the last migration is recognised as unchanged.", "quantifier": "every content of the catalogue (any schemas, tables and columns), every table and database name, every Go type with every size", "why_tests_cant": "Catalogues of real servers hold arbitrary other schemas and tables; the comparison depends on how each type is shown by the server", "anchors": ["cmd/sqlgen/codegen/dialect/postgres/column.go: tableColumns, ColumnDataType", "cmd/sqlgen/codegen/dialect/mysql/column.go: tableColumns", "cmd/sqlgen/codegen/dialect/postgres/migration.go: Migrate", "cmd/sqlgen/internal/sqltype/bool.go: Scan"]}
{"id": "C85", "title": "The tables of several models can be created in one database", "statement": "When migrations are written for several models whose tables do not exist yet, the CREATE TABLE statements of these migrations can be executed one after the other in one schema: no name that a statement introduces (the table, the primary key) is already taken because of another model, and afterwards every table exists.", "quantifier": "for every list of models with different table names, all keys and columns, every set of tables that exists already, every digest function; PostgreSQL and MySQL", "why_tests_cant": "Tests migrate one model; the clash only appears between the names of two migrations, for any two models whose keys have the same columns.", "anchors": ["cmd/sqlgen/codegen/dialect/postgres/index.go indexName", "cmd/sqlgen/codegen/dialect/postgres/migration.go Migrate", "cmd/sqlgen/codegen/dialect/mysql/index.go indexName", "cmd/sqlgen/codegen/dialect/mysql/migration.go Migrate"]}
{"id": "C86", "title": "An upsert leaves one row for each key, with the values of the record", "statement": "After an upsert of any batch of records, for every record exactly one row of the table has its key. If the key was new, the row holds the record; if it was there, the columns that are neither in the key nor left out by an option hold the record's values and all others hold what they held. Rows with other keys are unchanged. On PostgreSQL each record gets back its own row. With the option to do nothing (or without override on MySQL), existing rows stay and only records with new keys are added.", "quantifier": "for every model the generator accepts, every batch, every option, every table content, every set of unique indexes, every defaults and every way values compare (NULL is never equal)", "why_tests_cant": "The outcome depends on what is stored, on repetitions inside the batch and on other unique indexes; a test fixes one table and one batch.", "anchors": ["cmd/sqlgen/codegen/templates/db.go.tpl UpsertOne", "cmd/sqlgen/codegen/templates/db.go.tpl Upsert"]}
{"id": "C87", "title": "A read call returns the rows that were asked for, each column in its field", "statement": "A query for records returns, in an order that was asked for, one record for each row of the table that satisfies the condition (at most the limit), and every field of a record holds the value of its own column of that row; the columns the caller selects are the ones that are filled. A query for one record returns a first one. Finding or locking by key fills the record from a row that has its key. The call fails if there is no such row (for one record) or a value cannot be read, and only then.", "quantifier": "for every model, condition, order, limit and offset, every table content, every way the database compares and sorts, every conversion of values into fields", "why_tests_cant": "The chain from condition to text, from text to rows and from rows to fields has to hold for every condition and every content; a test fixes one query on one table.", "anchors": ["cmd/sqlgen/codegen/templates/db.go.tpl QueryStmt", "cmd/sqlgen/codegen/templates/db.go.tpl QueryOneStmt", "cmd/sqlgen/codegen/templates/db.go.tpl FindByPK", "cmd/sqlgen/codegen/templates/db.go.tpl LockByPK", "cmd/sqlgen/codegen/generate.go buildScanner"]}
{"id": "C88", "title": "After a write the records in memory are the rows of the table", "statement": "When Insert, InsertOne, Upsert or UpsertOne succeeds, every record that was passed by the caller equals the row now stored for it: on PostgreSQL in every column (including generated keys, defaults and columns the upsert left alone), on MySQL and SQLite in the generated auto-increment key. When the call fails because the database refused the statement, neither the table nor the records have changed.", "quantifier": "all generated models, all records and batches, all states of the table and its sequences, all results of converting column values to fields", "why_tests_cant": "It ranges over all tables, batches, database states and generated keys; a test sees one sequence value and one batch.", "anchors": ["cmd/sqlgen/codegen/templates/db.go.tpl: InsertOne, Insert, UpsertOne, Upsert", "cmd/sqlgen/codegen/generate.go: ScanAutoIncr, buildInsertOne"]}
{"id": "C89", "title": "A table with a key is a map from keys to records", "statement": "Starting from a table that holds some map from keys to records, a program that calls Insert, InsertOne, Upsert, UpsertOne, UpdateByPK, DeleteByPK and FindByPK any number of times sees exactly that map: Insert succeeds if and only if all keys are new and no two of them are equal, an upsert adds the record or changes the columns not left out of the record with the key, InsertOne succeeds if and only if no record has the key, UpdateByPK changes the record with the key and no other, DeleteByPK removes it and no other, FindByPK returns the values last written under the key or an error when there is none. A call fails otherwise only when the database cannot be reached, and then it changes nothing. After the calls the table has one row for each key of the map.", "quantifier": "all generated models, all initial contents, all sequences of calls with all records, all outages of the database between the calls", "why_tests_cant": "Histories of any length over any records with outages at any point are infinitely many; a test runs one script against one table.", "anchors": ["cmd/sqlgen/codegen/templates/db.go.tpl: Insert, InsertOne, Upsert, UpsertOne, UpdateByPK, DeleteByPK, FindByPK", "cmd/sqlgen/codegen/generate.go: buildInsertOne, buildFindByPK, buildUpdateByPK"]}
{"id": "C90", "title": "A call changes nothing in the slices of its caller", "statement": "Insert, UpsertOne and Upsert leave every slice of the program as it was: the slices given as options (omitted fields, duplicate keys), other slices on the same arrays, and the slices that the methods of the model return. The statement a call sends therefore depends on the content its arguments have when it is called, and the same call made again sends the same statement.", "quantifier": "all heaps of arrays, all slices with any offset, length and capacity, all models, all options, all growth policies of append, all sequences of calls", "why_tests_cant": "Whether append writes into an array of the caller depends on the capacity of a slice and on who else holds the array; tests pass literals, whose capacity is their length.", "anchors": ["cmd/sqlgen/codegen/templates/db.go.tpl: WithOmitFields, WithDuplicateKeys, Insert, UpsertOne, Upsert", "cmd/sqlgen/codegen/generate.go: Columns"]}
{"id": "C91", "title": "Upserts made at the same time send what each would send alone", "statement": "When several goroutines call UpsertOne (PostgreSQL) at the same time, with options that may have been built once and shared, each call sends the statement and the arguments it would send if it ran alone, each call comes to its end, and the strings of the program are left as they are, whatever the order in which the steps of the calls take place.", "quantifier": "all numbers of concurrent calls, all models and option slices, all schedules of the steps of the calls, all growth policies of append", "why_tests_cant": "The outcome depends on the schedule and on the spare capacity of the slices of the options; a test sees a few schedules, and the race detector reports only those it sees.", "anchors": ["cmd/sqlgen/codegen/templates/db.go.tpl: UpsertOne", "cmd/sqlgen/codegen/templates/db.go.tpl: WithOmitFields, WithDuplicateKeys, upsertOpts", "cmd/sqlgen/codegen/generate.go: Columns"]}
{"id": "C92", "title": "A struct that embeds a model is a model of its own", "statement": "When a model struct embeds other model structs, the functions of the generated package read and write the outer struct through what was generated for it: its own table, its own columns, its own key and its own statements, whatever methods Go promotes from the embedded structs, and whatever the order in which packages are generated.", "quantifier": "all trees of embedded structs (any depth, any number), all tables and keys of each of them, all runs of the generator", "why_tests_cant": "Which method a call reaches depends on the whole tree of embedded structs, on the conditions under which each method is generated for each of them, and on what earlier runs left on disk.", "anchors": ["cmd/sqlgen/internal/compiler/compiler.go: Table.Implements", "cmd/sqlgen/codegen/codegen.go: Generate", "cmd/sqlgen/codegen/generate.go: generateModels", "cmd/sqlgen/codegen/templates/db.go.tpl: InsertOne, DeleteByPK, LockByPK, UpsertOne", "sequel/sequel.go: PrimaryKeyer, CompositeKeyer, AutoIncrKeyer, Inserter"]}
{"id": "C93", "title": "Calls made at the same time take effect one at a time", "statement": "When several goroutines call InsertOne, Insert, UpsertOne, Upsert, UpdateByPK, DeleteByPK and FindByPK on one table at the same time, each deciding its next call from the replies it got, every call takes effect at one moment between its beginning and its return: the calls stand in one order that agrees with the order of each goroutine and with calls that returned before others began, and the same calls made one after the other in that order give the same replies and leave the same table. No goroutine has to wait for another to get its reply.", "quantifier": "all numbers of goroutines, all strategies, all schedules of their steps, all models, drivers and databases that execute a statement as one step", "why_tests_cant": "A test run sees one schedule of a few goroutines; the number of schedules grows without bound.", "anchors": ["cmd/sqlgen/codegen/templates/db.go.tpl: InsertOne, Insert, UpsertOne, Upsert, FindByPK, UpdateByPK, DeleteByPK"]}
{"id": "C94", "title": "Paging works while the table changes", "statement": "While a program pages through a table with Next or Prev from a cursor, other programs may insert, change and delete rows between any two requests. The pages then show the rows in key order without showing a key twice, each row as it was in the table when its page was read; every key at or after the cursor that is in the table all the time is shown once the iteration has ended; an inserted or deleted row does not stop the iteration.", "quantifier": "all tables at all times, all changes between requests, all cursors, page sizes and numbers of pages taken, both directions, all generated models", "why_tests_cant": "The changes between requests are an arbitrary history by other programs; a test has one fixed history.", "anchors": ["cmd/sqlgen/codegen/templates/db.go.tpl: Pager.Next, Pager.Prev, FindByPK"]}
{"id": "C95", "title": "A generator run on a disk that fails touches only generated files, reports what failed, and can be repaired", "statement": "Whatever file operations fail during a run of the generator (removing, making a directory, opening, a write that stops after some bytes, closing) and wherever it stops, every file of the user has its old content. A run that reports success could do everything it needed: each asked package has the code of its models, a package without models has no generated file, and the database and operator files are written. A later run on which nothing fails ends with the same result and the same files as if the failed run had never been made. A failed run leaves the old generated code.", "quantifier": "every content of the disk, every list of sources, every settings, every outcome of each file operation, every set of directories that cannot be listed, every point where the run stops, every parser and renderer whose answers do not depend on generated files", "why_tests_cant": "A test makes one chosen operation fail; the operations, the bytes written before an error and the combinations of failures are unbounded.", "anchors": ["cmd/sqlgen/codegen/codegen.go Generate, parseGoPackage", "cmd/sqlgen/codegen/generate.go generateModels", "cmd/sqlgen/codegen/init.go renderTemplate", "cmd/sqlgen/internal/fileutil/fileutil.go IsDirEmptyFiles"]}
{"id": "C96", "title": "Locking a record and updating it loses no update", "statement": "When several transactions lock the same record with LockByPK in an exclusive mode, change what they got and write it back, the row ends with all their changes applied one after the other: none is lost, none is applied twice, no worker waits forever, and no other row is touched. It should be possible to do this with the functions of the package (LockByPK and UpdateByPK).", "quantifier": "every generated model with a key whose columns are all written, MySQL and PostgreSQL, every number of workers, every change that keeps the key, every schedule, every database that obeys row locks", "why_tests_cant": "A lost update or a worker that waits for itself shows only under certain interleavings; tests run a few schedules on one database.", "anchors": ["cmd/sqlgen/codegen/templates/db.go.tpl:LockByPK", "cmd/sqlgen/codegen/templates/db.go.tpl:UpdateByPK", "cmd/sqlgen/codegen/generate.go"]}
{"id": "C97", "title": "Calls give back the connections they take, and do not wait for each other for ever", "statement": "Every offered function takes at most one connection of the database's pool at a time and has given it back when it returns, whatever the database answers (errors, rows that cannot be scanned, results of any length). The loop over pages holds no connection while the caller's body runs, so the body may use the same database. Any number of goroutines that make such calls on a pool with at least one connection can always go on until all are finished, under every schedule.", "quantifier": "all functions, database answers, page loops with any calls in the body, pool sizes, numbers of goroutines and schedules", "why_tests_cant": "a lost connection or a deadlock shows only for particular errors, nesting of calls, pool sizes and schedules", "anchors": ["cmd/sqlgen/codegen/templates/db.go.tpl: InsertOne, Insert, UpsertOne, Upsert, FindByPK, UpdateByPK, DeleteByPK, LockByPK, Pager.Prev, Pager.Next, QueryStmt, QueryOneStmt, ExecStmt"]}
{"id": "C98", "title": "What a loop body does with a page does not change the pages that follow", "statement": "The caller of Next or Prev may do with the page it is handed what it likes: overwrite records, shorten it, sort it, append to it. The pages that follow are those it would have been handed otherwise.", "quantifier": "all loop bodies made of assignments, appends, re-slicing and clipping of the page; all tables, also ones that change; both directions; all page sizes, drivers and generated models; any number of pages; any growth policy of append", "why_tests_cant": "The page is a window on an array that also holds the first record of the next page, which is read after the loop body has run; whether a body reaches that cell depends on lengths and capacities, and tests only use bodies that read.", "anchors": ["cmd/sqlgen/codegen/templates/db.go.tpl: Pager.Prev, Pager.Next"]}
{"id": "C99", "title": "Paging leaves the caller's records as they are", "statement": "Iterating with Next or Prev changes none of the caller's records: neither the record given as cursor, nor any copy of it, nor the records of pages that were handed out earlier.", "quantifier": "all models with columns in the record itself or in structs behind pointers; all records and whatever structs they share; all answers of the database; any number of turns", "why_tests_cant": "The cursor is copied and then filled from the database; the copy still points to the caller's structs. Whether anything of the caller's is overwritten depends on which pointers are shared, for all models and for iterations of any length.", "anchors": ["cmd/sqlgen/codegen/templates/db.go.tpl: Pager.Prev, Pager.Next, FindByPK", "cmd/sqlgen/codegen/generate.go: buildScanner"]}
{"id": "C100", "title": "The text of a list of floats is a JSON array of its numbers", "statement": "MarshalFloat64List turns a list of floats into a JSON array with one number per element, in order, each of them the element: with a precision, the decimal of that many digits nearest to it; without one, the element itself.", "quantifier": "all lists of float64, of any length, with zeros, subnormal numbers, infinities and NaN; all precisions from zero on, given or not", "why_tests_cant": "There are 2^64 floats and any number of precisions; the tests format a handful with a precision of two or four digits, and only the empty list without a precision.", "anchors": ["sequel/encoding/marshaler.go: MarshalFloat64List"]}
{"id": "C101", "title": "The text of a list of times is a JSON array of its times", "statement": "MarshalTimeList turns a list of times into a JSON array with one string per element, in order, each the RFC 3339 text of that time, so that the times can be read back.", "quantifier": "all lists of times of any length, with any fraction of a second, in any zone, of any year from 0 on", "why_tests_cant": "The only test is that of the empty list; zones, fractions and years combine without end, and each element needs quotes and separators of its own.", "anchors": ["sequel/encoding/marshaler.go: MarshalTimeList"]}
{"id": "C102", "title": "A string field holds the text the database sent", "statement": "Scanning a text column (string or bytes) into a string field or string pointer stores exactly these bytes; NULL empties the field or makes the pointer nil. Other values are refused by a strict scanner, which leaves the field alone; without strictness integers are stored as their decimal text, booleans as true or false, floats and times as their library text.", "quantifier": "all texts, integers, booleans, floats and times, fields and pointer fields with any old value, strict and not strict", "why_tests_cant": "The texts, the old values of the field and the kinds of driver values combine without bound; a test covers single texts.", "anchors": ["sequel/encoding/string.go: StringScanner, strScanner.Scan"]}

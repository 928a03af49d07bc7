# Formal model of sqlgen in Rocq (Coq 8.16.1)

## Layout

* `rocq/theories/Base.v` - bytes (`list ascii`), outcomes (`Ok | Err | Panic`), Go slice helpers.
* `rocq/theories/Model*.v` - executable model of the code, no proofs. Every definition cites the modelled file and lines.
* `rocq/theories/Spec*.v` - small specifications independent of the model (SQL lexer and grammar, Go string literals, JSON grammar, PostgreSQL literal lexing, database semantics, calendar).
* `rocq/theories/Lemmas*.v` - proofs.
* `rocq/theories/Prop*.v` - property theorems, each followed by `Print Assumptions`, with an `Example` showing that a concrete non-trivial case meets the hypotheses.

Naming: `Cnn_...` is a theorem about property Cnn; suffix `_partial` means that only part of the property is proved (the missing part is named in the comment and in MANIFEST.json); suffix `_refuted` means the modelled code violates the property and the theorem exhibits a witness.

## Plan per property

| Property | What is modelled | How it is proved |
|---|---|---|
| C01-C05 | Value/Scan of the array types, `parseArray`, escaping, hex, decimal | encode/decode round trip by induction on the list and on the bytes |
| C06 | `scanBytes` with Go integer conversion `T(n)` written as wrap-around | exactness when ranges are checked; witness of truncation otherwise |
| C07 | `parseArray` with explicit `Panic` for out-of-range index and modulo by zero | loop invariant over the parser states |
| C08 | destination passed in and returned | case analysis over all error paths |
| C09, C15 | writers; a JSON grammar in `SpecJson.v` | recogniser/decoder accepts the output; witnesses otherwise |
| C10 | `pgutil.Quote`; PostgreSQL E'' lexing in a spec file | lexing of the output followed by any text returns the input and that text |
| C11-C14 | scanners over driver values | case analysis, wrap-around arithmetic |
| C16-C22 | table/column records, what generated methods return; for C16, C17, C21 from the declarations of the struct through the parser (`SpecEnd.v`, `PropEnd.v`) | induction over the column list; statements read back by a SQL lexer and parser; composition with C43-C45 |
| C23, C24 | literal/identifier quoting; Go and SQL lexing specs | round trip under a stated character class; witnesses outside |
| C25-C29 | runtime template functions | statements read back by the SQL parser, arguments resolved through the placeholders |
| C30-C32 | `SqlStmt`, operators as functions on the writer state | print/parse round trip by induction over the condition tree |
| C33 | `Format`, `strings.Index` | induction over segments |
| C34 | pool and builders as a state machine over a heap of builders | invariant over all interleavings |
| C35-C37 | pager loop over an abstract table; statement text | induction on remaining rows; witnesses for other orderings |
| C38, C39 | row streams as lists of events | witnesses and positive theorem for the error-free case |
| C40 | runtime functions on `[]` | direct |
| C41-C45 | parser queue over a struct tree, sort, tags, renaming | induction over trees / field lists / strings; witnesses |
| C46, C47, C50 | config merge, import table, registry | field-wise; invariant over histories |
| C48 | `FolderMatcher`, `FileMatcher`, `RegexMatcher` | prefix lemmas; witness |
| C49 | `Migrate` of both dialects producing a list of actions | semantics of actions on a column map; witnesses |
| C51 | pointer paths and an abstract nested-struct heap | induction on paths |
| C52 | type-name tables; range of SQL types as spec | finite check lifted to all values |
| C53 | C17, C19, C20 plus a table semantics (`SpecDb.v`, `SpecStore.v`) | composition |
| C54 | driver buffers as a memory that changes after the scan | copy versus alias |
| C55 | MySQL's normal form of JSON columns (spaces after commas) against the slice parsers | induction on the list; witnesses |
| C56 | float arrays with strconv's contract as a hypothesis | the C01 machinery |
| C57, C58 | generated valuer followed by scanner; scanners on every driver value | case analysis, range arithmetic |
| C59 | operators and `Set` against `SQLColumn` | read-back; refuted |
| C60-C62 | declarations, comments and type groups of a file; the parser's work list | induction over declarations; witnesses |
| C63 | camel and Pascal case | induction over bytes and over words |
| C64 | column type tables | finite case analysis over the type names |
| C65, C66 | `columnDataType` over a graph of type nodes, fuel for the loop | rank argument for termination; non-termination as "no fuel suffices" |
| C67 | the three regular expressions, the layouts of `time.Parse`, the strict RFC 3339 parser | both directions: every text of a real time is read as it, and whatever is read has such a text |
| C68, C69 | text, pointer and binary scanners over arbitrary user methods; a heap of cells shared by records | case analysis over driver values; invariant "old cells keep their content" over the columns |
| C70 | `encoding/json` decoding into an existing value over a type tree, encoder and string escaping; the reader of `SpecJson.v` | nested induction on the type and on the tree: decoding into zero is exactly the denotation; print/read round trip |
| C71 | float scanners and valuers on the standard library's `spec_float`, decoding of the 64 bits, the declared column types | `binary_round` characterised by integer rounding; proved nearest-even against the independent `SpecIeee.v`; canonical representations give equality |
| C72 | the file operations of a run in order (`ModelRun.v`), with parser, renderer and planner as parameters | targets of every operation; the operations depend only on the user's files, so a repeated run does the same and a replay of operations from any prefix ends in the same files |
| C73 | the expression templates, the regular expression and the replacement of `expr.go` (`ModelExpr.v`); packages.Load is a parameter | where the leftmost match lies in a text built from Go types; textual replacement by induction over the text; derivations of the written type before and after |
| C74 | the list of methods with receivers that `generateModels` writes, with `MissingMethod` as a three-valued answer (`ModelMethods.v`); the interfaces and type parameters as lists of names (`SpecMethods.v`) | the table is read back to the declarations (`parsed_view`); membership in the list by cases; name collisions by the first and last letters of the fixed names |
| C75 | all statement functions of `ModelRuntime.v`, `ModelStmt.v` and `ModelPager.v` as one type of calls (`SpecSafe.v`) | a relation on values lifted to records, conditions and calls; every function preserves it, by induction on conditions and lists |
| C76 | the text that generate.go prints for a struct, print by print (`ModelText.v`); a reader of Go source (`SpecSource.v`); the meaning of each method in terms of the declared fields (`SpecOutput.v`) | every printed piece scans to its tokens whatever follows, pieces compose, brackets match, so the reader finds one declaration per method; the bodies are compared with the fields through the table built from them; statements through the theorems of C17, C19, C20 |
| C77 | the file around the models: header, package clause, import block (`ModelFile.v`, with the imports of `ModelConfig.v`); what an import binds (`SpecFile.v`) | declarations as chunks of complete tokens that compose; the last element of a path characterised by decomposition; distinct names by the invariant of C47; a family of counterexamples |
| C78 | the tables of column types of the dialects as text templates, the walk over a type, the choice between as-is, own methods, table, text methods and JSON (`ModelColumn.v`); the syntax and the typing rules of Go for the expressions that occur, and what database/sql takes (`SpecTyping.v`) | a deterministic grammar over the tokens; rendering lemmas of C73; each row of each table as one of a few shapes, one typing lemma per shape; refutations by inversion of the typing rules |
| C79 | the same model; the form in which database/sql sends an argument and a destination takes a value (`SpecForm.v`) | the two choices of C78, the rows of the tables compared pairwise, the walk behind a pointer; refutations by inversion of the typing rules |
| C80 | the texts written by Migrate, byte for byte (`ModelScript.v`); a reader of scripts: sections, tokens, statements, columns, keys, actions (`SpecScript.v`), what can be said (`SpecScript2.v`) | the tokens of a concatenation, induction over lists of columns and actions; refutations by the reader rejecting a column without a type, and by size for strings with quotes |
| C81 | the commands as functions from the file system and the user's answers to file operations, YAML an arbitrary reader and writer (`ModelCommand.v`); the settings in force (`SpecCommand.v`) | case analysis on the files present, the merge of C46 with itself; refutations for all files |
| C82 | the texts of all column types of the three dialects (`ModelDataType.v`); the types the databases have, how a declaration is read (with the tokens of C80) and which values a type keeps (`SpecDataType.v`) | a decision procedure for the grammar of types, proved sound and complete; the tokens of a type with a size, for all sizes; evaluation for the finite rest; refutations by number theory (an odd number of 25 bits) |
| C83 | which records a condition asks for, in two-valued logic with nil as a value (`SpecWhere.v`); the operators and statements of C30 and C32, the database of C35 (three-valued truth) | induction over conditions: truth implies being wanted, always; the converse without NULL; lifted to answers and changes of tables; refutations where NULL is involved |
| C84 | the catalogue queries as texts, the scanning of their rows, Migrate up to the comparison (`ModelCatalog.v`); information_schema.columns as entries, which rows a server answers with (reader of SQL of C01, database of C35) and how PostgreSQL shows types (`SpecCatalog.v`) | the query texts are read by the SQL reader for all names; filters and orders by the laws of text comparison; scanning by cases of what drivers hand over; types by a computed view proved equal to the relation |
| C85 | The text of migration files (ModelScript.v) is read by the reader of SpecScript.v; SpecRelations.v says which names CREATE TABLE takes in a schema (PostgreSQL: the index of a primary key is a relation; MySQL: its name is ignored) | induction on the list of models: all tables are created iff the digests of the key columns differ (PostgreSQL), always (MySQL). |
| C86 | The statements of C27 (ModelRuntime.v) executed on a table: SpecConflict.v says what INSERT does with unique indexes in PostgreSQL (ON CONFLICT) and MySQL (ON DUPLICATE KEY UPDATE, IGNORE), and what is expected of an upsert | one step (`put`) keeps keys unique and is followed through the batch by what is seen at one key; PostgreSQL marks changed rows, from which the keys of the batch differ. |
| C87 | ModelQuery.v composes the statements (ModelStmt.v, ModelRuntime.v) with scanning (ModelRows.v); SpecQuery.v: a database that serves one table, and the rows a query picks | composition of C32, C83, C29, C19 and C38; rows picked and left out are a permutation of the table. |
| C88 | ModelWrite.v composes the writing statements with the state of a database and scanning, and `ScanAutoIncr` with Go's integer conversion; SpecWrite.v: a database that performs one statement after the other | composition of C25, C86, C17 and C38/C39, record by record. |
| C89 | ModelHistory.v: sequences of InsertOne, UpdateByPK, DeleteByPK and FindByPK on a database with a state; SpecHistory.v: the map from keys to records, and a database that executes single statements or is away; ModelBatch.v, SpecBatch.v: the same with Insert, UpsertOne and Upsert | induction on the calls; invariant: unique keys, and one row for each entry of the map; composition of C17, C19, C20, C29 and C38, for batches and upserts of C25, C27 and C86. |
| C90 | ModelSlice.v: slices as windows on arrays of a heap, append in place or on a new array with any growth, and Insert, UpsertOne and Upsert on such slices; SpecSlice.v: cells, what a slice shows and what it can grow into | invariant along the appends of a call (caller's cells, omitted fields, a slice of columns apart from both); induction on sequences of calls; overwritten cells for all heaps; counterexamples |
| C91 | ModelRace.v: UpsertOne cut into six steps on the heap of ModelSlice, any number of calls, schedules as lists of call numbers (each step atomic); SpecRace.v: option slices that no other call sees or shares room with | invariant: every call holds cells apart from what others write, and the rest of its work on lists is the whole call on lists; frame lemma for the other calls; induction on schedules; a measure for progress; counterexample with a shared slice |
| C92 | ModelEmbed.v: trees of embedded structs, the method sets left by generateModels (ModelMethods), Go's lookup of promoted methods level by level, the model that db.go.tpl sees through its type switches; SpecEmbed.v: paths in the tree and the shallowest method | the lookup is the shallowest unique method (induction on depth); iff characterisation of the generated methods; case analysis on the key; counterexamples for composite keys, read-only structs, imported models, second runs |
| C93 | ModelConcur.v: goroutines with strategies, a call in three steps (build, execute, read), schedules; SpecConcur.v: the order of the calls | invariant over the schedule: the database is where the calls of the order, made one after the other, leave it; a call of ModelBatch is its three steps. |
| C94 | ModelMoving.v: the loop of the pager where each request finds the table as it is then; SpecMoving.v: what an iteration may show | induction on the pages: each page is the sorted rest of the table at its time from the cursor on; the lemmas of C35 for one request. |
| C95 | ModelDisk.v: the run of C72 as a sequence of attempts whose outcomes (done, error, error after some bytes) are a parameter, with directories that cannot be listed; SpecDisk.v | parts of a run composed by one operator; what they touch, what they report and how they follow the run of C72 are proved for each part and preserved by composition |
| C96 | workers that lock a record with LockByPK, change it and write it back, step by step under any schedule, in a transaction or over the pool (ModelLock); row locks as in the manuals (SpecLock) | an invariant over schedules: who holds the row, at which step each worker is, and that the row is the fold of the changes made so far; refutations for UpdateByPK inside and after the transaction, whose *sql.DB parameter keeps it out of the transaction |
| C97 | ModelConn.v: the events Take and Give of each function for what the database answers, page loops with the caller's body, goroutines on a pool | every trace alternates Take and Give (induction over rows and rounds); invariant for the pool: those in use are the goroutines between Take and Give; refuted for panicking methods and for calls inside of transactions. |
| C98 | ModelConsumer.v: the page as a window on the array of the query, the steps of the caller's loop body on it, and the cursor that is read from the array afterwards | invariant over the steps: a window that ends within the page never writes the cell of the cursor, so the iteration is that of ModelMoving and C94 applies; refuted for an appended record, which becomes the cursor, by computing the cell. |
| C99 | ModelShared.v: records with pointers to structs in a memory, Addrs with its allocations, scanning, the turns of Prev and Next with the copies they make | invariants over the turns: the structs of new records are new, and only the structs that the cursor carries are written; refuted for the cursor itself by following the write. |
| C100 | ModelMarshal.v: MarshalFloat64List and strconv.FormatFloat with 'f' and a precision from zero on, as one exact rounding of the float | the digits printed are those of the rounded number (induction over the digits), every element is a number of the JSON grammar of SpecJson.v, the rounding is the nearest and so keeps the order; refuted without a precision and for infinities and NaN |
| C101 | ModelMarshalTime.v: MarshalTimeList and time.Time.Format with the quoted RFC 3339 layout | the digits written are those of the texts of SpecTime.v, nothing in them is escaped, so every element reads as a JSON string; refuted for fractions, zones with seconds and years of five digits |
| C102 | ModelEncoding.v: strScanner.Scan, with the texts of floats and times abstract | cases of the driver value and of the field; the text of an integer denotes it |

## What is modelled and what is not

| File of /repo | Model | Not modelled |
|---|---|---|
| sequel/driver/postgres/pgtype/*.go | ModelArray | float formatting itself (hypothesis), `Array`/`GenericArray` style helpers that are not in the file |
| sequel/sqltype/*.go | ModelArray | float formatting itself |
| sequel/driver/postgres/pgutil | ModelPgutil | |
| sequel/encoding int, uint, bool, string, byte_array, rune_array, marshaler | ModelEncoding | float and time formatting (abstract functions) |
| sequel/encoding/marshaler.go MarshalFloat64List | ModelMarshal | negative precisions (the shortest text that reads back) |
| sequel/encoding/marshaler.go MarshalTimeList | ModelMarshalTime | years before 0 |
| sequel/encoding/time.go | ModelTime | Go's general parser on texts with a T that the strict RFC 3339 parser refuses (abstract parameter) |
| sequel/encoding/{text,pointer}.go, sequel/types/binary.go | ModelScan | the user's methods (arbitrary functions), FormatFloat and MarshalText of times (abstract functions) |
| sequel/encoding/float.go | ModelFloat | strconv.ParseFloat (contract), NaN payloads |
| sequel/encoding/json.go | ModelJson | floats, numbers inside interfaces, case-insensitive member names, struct tags, the decoder on texts that are not JSON (abstract parameter), types with MarshalJSON |
| sequel/strpool/pool.go | ModelPool | garbage collection of pool entries beyond "a pool may forget" |
| sequel/clause.go, sequel.go, result.go | ModelStmt, ModelRuntime, ModelRows | interface declarations have no content to model |
| cmd/sqlgen/internal/compiler/{parser,compiler,tag}.go | ModelParser, ModelCompiler | go/packages loading, go/types itself (declarations are given as trees), generic instances |
| cmd/sqlgen/internal/strfmt | ModelNaming | |
| cmd/sqlgen/internal/sqltype/bool.go | ModelEncoding | |
| cmd/sqlgen/codegen/generate.go | ModelGen, ModelPointers, ModelResolve, ModelText (the text of all methods), ModelFile (the file) | imports.Process |
| generate.go 680-744 (valuer, scanner), tool.go 15-121, dialect/*/column_type.go (values and scanners) | ModelColumn | aliases (types.Alias), which the walk follows; two types are the same when they print the same |
| cmd/sqlgen/codegen/tool.go | ModelResolve, ModelTypes | |
| cmd/sqlgen/codegen/config.go, package.go, path_matcher.go, dialect/dialect.go | ModelConfig, ModelPaths | YAML decoding, packages.Load (abstract function), file system (paths are texts) |
| cmd/sqlgen/codegen/dialect/*/{mysql,postgres,sqlite,column_type}.go | ModelGen, ModelTypes, ModelDataType | what the databases do with the types is written down in SpecDataType from their manuals (types, ranges, padding); strict mode of MySQL |
| cmd/sqlgen/codegen/dialect/*/migration.go | ModelMigration (trees), ModelScript (texts) | strconv.FormatFloat and md5 are parameters; opening connections; the text written before a panic |
| cmd/sqlgen/codegen/templates/db.go.tpl | ModelRuntime, ModelStmt, ModelPager, ModelMoving, ModelRows, ModelQuery, ModelWrite, ModelHistory, ModelBatch, ModelConcur, ModelSlice, ModelRace, ModelEmbed, ModelPool, ModelLock, ModelConn (connections), ModelConsumer (what callers do with pages), ModelShared (structs that records share) | contexts, the database (SpecDb.v) |
| cmd/sqlgen/codegen/templates/operator.go.tpl | ModelStmt | |
| codegen/codegen.go 41-262, init.go 46-116, generate.go 353-378 (file effects) | ModelRun, ModelDisk | which files are removed and written, in which order; ModelRun: the operations succeed, ModelDisk: each may fail |
| cmd/sqlgen/codegen/expr.go | ModelExpr | text/template (a list of pieces); functions, channels, structs and interfaces written in place; non-ASCII names |
| cmd/sqlgen/codegen/generate.go: which methods are written | ModelMethods | method bodies beyond those in ModelGen; the alias types for fields of unnamed struct types; SQL function templates that fail |
| cmd/sqlgen/{cmd,init,generate}.go, codegen/init.go Init, config.go (finding and reading files) | ModelCommand | cobra's parsing of flags, what is printed, YAML (arbitrary functions) |
| cmd/sqlgen/codegen/dialect/*/column.go | ModelCatalog, ModelScript | column.Equal (unused) |
| cmd/sqlgen/{main,version}.go, interface.go, the rest of dialect/*/index.go | none | tableIndexes is never called |

## Trusted base

* Coq 8.16.1 kernel (`coqc`; vcheck also runs `coqchk`).
* `Print Assumptions` stands under every property theorem and prints "Closed under the global context" for each of
  them: no axiom, no opaque parameter. `coqchk` additionally lists the axioms of library modules that are loaded
  somewhere in the import closure, whether used or not: the seven fields of `Coq.ssr.ssrunder` (`Under_rel.Under_rel`,
  `Under_rel.Under_rel_from_rel`, `Under_rel.Under_relE`, `Under_rel.over_rel`, `Under_rel.over_rel_done`,
  `Under_rel.under_rel_done`, `Under_rel.Over_rel`). They belong to the standard library and
  no theorem here depends on them.
* Section variables (for example the formatting of floats) are generalised when the section closes: they are ordinary
  universally quantified arguments of the theorems.
* The reading of the Go code: the model is written by hand from /repo; nothing connects it mechanically to the Go source.
* Behaviour of the Go standard library used by the code (strconv, strings, regexp, time, fmt, sort, sync.Pool, database/sql,
  text/template) as described in the comments of the model definitions.
* The specifications `Spec*.v`: what SQL, JSON, Go string literals, PostgreSQL literals and the calendar mean.

## How the theorems are tested

`seeded/LOG.jsonl` records, one line per attempt, an edit to a model definition that a realistic bug would make, the
claim it breaks, the theorems that no longer prove and those that were tightened because they still proved.
`tools/mutate.py` applies the edits in a scratch copy and rebuilds.

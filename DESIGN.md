# Formal model of texted: design

## What is verified

`texted` edits text by running small scripts over a text buffer.  The model in
`rocq/theories` covers, function by function: the value types and equality,
the buffer and all 50 built-in commands, the evaluator, the parsers and writers
of the three script formats, number parsing and printing, the library entry
points (`ExecuteScript*`, `EditFile*`), the commands `texted edit`, `parse`, `doc`
and `test` with their flags, the MCP server with its three tools, the documentation
registry and its texts, the XML test runner, and concurrent runs of `EditFiles`.
Every definition cites file and lines in /repo.

## Layout

| file | content |
| --- | --- |
| `Base.v` | byte strings, 64-bit wrap-around integers, decimal printing |
| `Float.v` | float64 as `SpecFloat`, int conversion |
| `Utf8.v`, `Strconv.v` | UTF-8 decoding/encoding, `strconv.Quote/Unquote/ParseFloat/ParseBool`, `%g` |
| `Values.v` | `Value`, `Equal`, printing |
| `Buffer.v` | buffer record, outcome monad |
| `Ext.v` | external behaviour (regexp engine, Unicode tables) as an explicit record |
| `Builtins.v`, `Eval.v` | the 50 built-ins, the evaluator, `NewDefaultEnvironment` |
| `Parser.v`, `Writer.v`, `Json.v` | script formats |
| `Files.v`, `Cli.v`, `Flags.v` | library file functions, `texted edit` and `texted parse`, list-valued flags |
| `CmdLine.v` | flag tables, argument parsing (pflag), command dispatch (cobra), `main` |
| `Tools.v`, `Serve.v` | MCP tools, the MCP server |
| `Concurrent.v` | processes running `EditFiles` at once, one system call at a time |
| `Lists.v` | the methods of `edlisp.List` on a heap of lists, slices and shared arrays |
| `Docs.v`, `DocsData.v` | documentation registry, its contents, the documentation command and tool |
| `Testing.v`, `TestCmd.v` | XML test verdicts, `texted test` |
| `Spec*.v` | the vocabulary in which the properties are stated; a property of one layer may name a lower layer's entry points (`parse_string`, `eval`), which have properties of their own, but not its helpers |
| `RefExt.v`, `RefRegex.v` | executable engines used for examples only |
| `Proofs_*.v` | lemmas |
| `Prop_*.v` | the theorems, under a heading per property; `Print Assumptions` and non-vacuity examples |
| `RepoTests.v` | the repository's own XML tests and documentation examples, run by `vm_compute` on the model |
| `UnitTests.v` | the repository's own Go unit tests, likewise |

## Modelling decisions

* Go `string` = `list byte`; Go `int` = `Z` with an explicit 64-bit `wrap` on every
  arithmetic operation; `float64` = `SpecFloat.spec_float` at precision 53 / 1024.
* Slicing or indexing out of range is the outcome `Panic`; loops run on explicit fuel with
  the outcome `Diverge` when it runs out, and a theorem shows that this never happens.
* A string longer than 2^48 bytes cannot be allocated: the outcome is `OutOfMemory`
  (this keeps all lengths in the range of `int`).
* The regexp engine, Unicode case/printability tables and the platform-dependent
  conversion of out-of-range floats are fields of a record `Ext`.  Theorems quantify over
  every such record; those that need it assume `ext_ok E` (reported match ranges are in
  range).  Executable instances satisfy `ext_ok` and run the repository's tests.
* `strconv.ParseFloat` is modelled as exact accumulation of the digits followed by one
  rounding; Go's fast paths are correct roundings of the same value.  C68 proves the model
  against the definition of rounding over the rationals.  The digits of `%g` are found by
  search; C69 proves that they are the shortest and nearest, ties to
  the even digit, and that this determines the text.
* The file system is a function from path to optional content; each file operation takes
  its success or failure and the split of its write from an arbitrary fault oracle, and
  every intermediate durable state is recorded, so crash properties range over every
  crash point.  `Concurrent.v` is a small-step machine over the same files, with reads and
  writes split anywhere; a theorem ties its solo runs to `Files.v`.
* Map iteration order (documentation registry) is an arbitrary permutation.

## Properties

`properties.jsonl` lists the properties, `MANIFEST.json` the theorems for each.  Method:

* C01, C02, C43, C46: induction on programs / nested induction on expressions.
* C03-C06: case analysis over all 50 built-ins against a signature table and effect table.
* C07-C26, C49, C61, C66: per-command theorems, stated with append-decompositions of the
  buffer text (`content = before ++ after`, `length before = point - 1`).
* C09, C10, C59, C60: invariants over all programs (structural induction on expressions).
* C27: induction on values.
* C28-C34, C47, C56: parser/writer round trips by induction over tokens and nested lists.
* C62, C63: independent grammars (`SpecJson.v`, `SpecLines.v`); the parser accepts exactly
  the grammar and computes its denotation.
* C35-C42, C48: file-system transition model; crash states by induction over files.
* C64: invariants over all request sequences.  C65: invariants over all interleavings.
* C44, C50, C51, C57, C58: the registry under permutation; its contents by computation.
* C45, C54, C55: test runner.  C52: flags as CSV.  C53: the worked examples of the documents.
* C67: texts of errors determine what they report.
* C68, C69: reading and printing numbers, over the rationals (`SpecNumber.v`).
* C73: an independent grammar of numerals (`SpecWord.v`); `strconv.ParseFloat` accepts exactly it.
* C74: the complement of C63: `SpecRefuse.v` says what is wrong first with any other text.
* C75: every run of `texted edit` and `texted parse`; `SpecEdit.v` says which steps are taken in which order,
  what is printed about them, and what a failure is called.
* C76: the complement of C62: `SpecData.v` is a grammar of all JSON and says what is wrong first with
  data that is no script.
* C77: `SpecPage.v` describes pages and listings as sequences of lines, built from relations (what is there
  only if not empty, what is there for each of several things); the theorems are equivalences between
  it and the answers possible under some order of map iteration, so nothing of the text is left open.
* C78: `SpecManual.v` gives every command's outcome for every argument list and state, including points outside
  the text; soundness (`Proofs_Manual*.v`), completeness and closure of the state space together give an equivalence.
* C79: `SpecMeaning.v` gives the meaning of expressions, programs and scripts as inductive relations over that manual and
  the grammars; the interpreter from script bytes to result or message is proved equivalent to it.
* C80: `SpecWrite.v` says what the three writers write for every value, including JSON strings and numbers and all errors,
  and what texted parse prints; `Prop_Write.v` proves the model equivalent.
* C81: `SpecUsage.v` says what is wrong with a command line that is refused, and the words of the complaint.
* C82: `SpecTrial.v` gives a whole run of `texted test`: the files chosen, the complaint about each test in its exact words, the trace, the lines printed and the exit status.
  It uses the meaning of scripts (C79) in place of the interpreter.
  Decoding the XML file is a parameter; the theorem assumes that the texts it yields are UTF-8, which encoding/xml guarantees.
* C83: `SpecProgram.v` composes the earlier relations into one for the whole program: from the arguments, the files and the input to the output, the files and the exit status.
  `texted_exact` says that the model behaves in a way exactly if the relation allows it.
  Left to parameters: the help texts, the MCP server (C64), the XML decoder, title-casing, and arguments the command line library handles itself.
* C84: `SpecService.v` does the same for the functions of the package `texted` and for the MCP server: one file, many files, one request, a session of requests, and the requests that are never answered.
* C85: `SpecGrowth.v` bounds the length of every text a program can make by the input and the literals of the program, and shows that the bound is reached.
* C86: `SpecEvery.v` says what replacing a text everywhere means; looping over search and replace is compared with it.
* C87: `SpecKinds.v` is a check of the kinds of arguments before a script runs; the check is compared with what running does, in both directions.
* C88: `SpecSure.v` joins the checks of C09, C85 and C87 into a class of scripts that succeed on every text they have room for.
* C89: `SpecRewrite.v` says when two runs come to the same; the theorems are equations between pieces of scripts that hold inside any script.
* C90: `SpecJoin.v` relates states that differ only in the last match; two scripts run one after the other are one script with a line between.
* C91: `SpecLibrary.v` says which parts of the `Ext` record a script needs; libraries that agree on these run it alike.
* C92: the order of the files of one call, and one call against two.
* C70: the list methods, with aliasing.  C71: the command line (`SpecCmd.v` its grammar, `SpecOption.v` what every option asks for).  C72: what failing tests report.

Where the code violates what its documentation promises, the property statement says what
the code does, and a `_refuted` theorem gives a concrete witness.

## Trusted base

* Coq 8.16.1's kernel, with `vm_compute`.
* Axioms: none.  `Print Assumptions` stands under every theorem of every `Prop_*.v` and answers
  "Closed under the global context" each time.  (`coqchk` also lists the `Under_rel` parameters of
  `Coq.ssr.ssrunder`, which the loaded standard library contains; no theorem depends on them.)
* The faithfulness of the hand-written model, as described above and in the comments of
  each definition.  In particular these parts are modelled from knowledge of the
  library, since its source is not in /repo: `strconv`, `unicode/utf8`, `bufio.Scanner`'s line limit,
  `encoding/json` (decoding, encoding, `Decoder.More`), `encoding/csv`, pflag's argument
  parsing and `StringSlice`, cobra's dispatch, help flag and argument checks, `fmt.Sprintf` for the verbs used, `os.ReadFile`/`os.WriteFile` as system
  calls, and `mcp-go`'s registry and argument helpers.

Not modelled: command lines that begin with a flag, cobra's own commands (`help`, `completion`), its help
and usage texts, XML decoding (test files enter as decoded records), the JSON-RPC transport of the MCP server,
Go's memory and stack limits other than the allocation limit above, file permissions and
symbolic links, and anything about time.  Code never reached from the program (`ParseTestFile`'s
wrappers, `IsA`, `Kind` methods, `ValidateJSONFormat`) is not
modelled unless a property names it.

## Mutation testing

`seeded/LOG.jsonl` records each wrong program tried: an edit of one definition of the model in a
scratch copy, the claim it should break, the theorems that failed, and the theorems that were
tightened or added when none did.  Theorems are checked one by one against the mutated
model, so a failure names the theorem itself and not only the first broken file.

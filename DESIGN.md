# Formal model of wiki2book in Rocq

This file says what is modelled, how each property is stated and proved, and what the results rest on.

## 1. Approach

* Go strings are byte sequences.  They are modelled as `list ascii` (`GoStr.v`), with the used functions of
  Go's `strings`, `fmt`, `strconv` and `path/filepath` packages defined as total Gallina functions.
* A Go function that can fail returns a value of type `res A`:
  `Ok a`, `Err` (an `error` was returned), `Panic` (run-time panic: index or slice out of range, nil
  dereference) or `OutOfFuel` (only for loops that are not structurally terminating).
* A loop whose termination is not structural takes a fuel argument.  Theorems either show that enough fuel exists
  or are stated for every fuel for which the run ends.
* Mutable tokenizer state (`tokenMap`, `tokenCounter`, `images`) is threaded explicitly.
* The file system is an explicit state (path to content and modification time); each system call is one step, so that
  crash points and interleavings are positions in a step list.
* Goroutines, channels and the wait group are a small-step transition system.
* External services (MediaWiki API, image converters, SHA-1, pandoc) are parameters of the definitions, universally
  quantified in the theorems.

Files come in four layers: `*Model.v` (definitions that mirror Go functions; every definition cites file and lines),
`*Spec.v` (small independent specifications), `*Proofs.v` (lemmas), `Prop*.v` (nothing but the final theorems, each
closed by `exact`, with an example showing that the hypotheses can be met and a `Print Assumptions`).

## 2. Plan per property

| id | what is modelled | how it is proved |
|----|------------------|------------------|
| C01 | `SanitizeFilename` as ten sequential replacements | equal to a per-character encoding, which has a left inverse |
| C02 | `SanitizeFilename`, `IsSanitized` | induction over the encoded string |
| C03 | `IsSanitized` | deletion of escape codes keeps reserved characters; counterexample for the strong reading |
| C04 | `filepath.Join`/`Clean`, `GetFilePathInCache` | cleaning is the identity on clean components; C01; counterexample for `..` |
| C05 | `EqualsInAnyOrder` | counterexamples; equivalence with set equality for duplicate-free lists |
| C06 | `RemoveDuplicates` | induction |
| C07 | `findCorrespondingCloseToken` | equivalence with a declarative nesting specification |
| C08 | `removeComments` | induction over the segment list |
| C09 | `removeUnwantedInternalLinks` | decomposition into text and links; panic witnesses |
| C10 | `handleUnwantedAndTrailingTemplates` | decomposition into text and templates; counterexample for prefix names |
| C11 | `removeEmptyListEntries` | line-wise characterisation |
| C12 | `removeEmptySections` and helpers | induction over lines |
| C13, C14 | `evaluateTemplates`, `replaceTemplateByPlaceholders` with arbitrary iteration orders | confluence of placeholder substitution; non-termination witness |
| C15, C16 | `parseBoldAndItalic`, `tokenizeBoldAndItalic` | invariant on the marker stack |
| C17 | `getToken`, `setToken`, `setRawToken` | invariant over all creation histories |
| C18 | all passes of `tokenizeContent` | invariant "only known keys" preserved by every pass; for calm texts (see C19) the run with the check of image closings is shown to be the real run |
| C19 | `Tokenize` (cleanup, template evaluation, all passes in a loop) | witnesses of panics, found by evaluating the model; an invariant ("calm" texts) that every pass keeps and under which no pass panics |
| C20 | `parseHeadings` | line-wise characterisation |
| C21, C22 | `parseReferences` | event-level machine and invariants |
| C23 | `parseLists`, `tokenizeList` | flattening equals the input lines |
| C24 | `parseTables`, `tokenizeTable...` | round trip from an abstract table |
| C25, C26 | `parseLink` and callers | decomposition; counterexamples |
| C27 | `parseParagraphs` | induction over lines |
| C28 | `parseNowiki` | decomposition |
| C29, C30, C31 | `expandString`, `expandToken`, `HtmlGenerator` | induction over token trees; counterexamples |
| C32 | `filenameToImagePath`, `postProcessImage` | case analysis over extensions and settings |
| C33, C34 | `StatsGenerator`, `GenerateCombinedStats` | induction; counterexamples |
| C35-C39 | cache and file system as a step machine | invariants over all step lists |
| C40 | several workers over one cache | witness schedule; sequential positive result |
| C41, C42 | `doRequest`, `DownloadAndCache` | induction over answer lists |
| C43 | `downloadImageUsingAllSources` | induction over hosts |
| C44 | worker pool | invariant of the transition system, termination measure |
| C45 | `processArticle` | witness |
| C46-C48 | configuration merge, validation, path handling | case analysis over options; counterexamples |
| C49 | SVG attribute handling | case analysis; counterexamples |
| C50 | command line of the image tools | case analysis over the template; counterexample for blanks |
| C51 | computation of the output path | case analysis over commands and output types; counterexamples |
| C52 | arguments for pandoc | the argument list is given by an independent grammar |
| C53 | `Tokenize`, with fuel for the loops | a measure for every loop (brackets, less-than signs, quotes, ...), and a lexicographic measure for the outer loop, show that enough fuel exists; the result does not depend on the fuel |
| C54 | `tokenizeContent` | the outer loop ends only when no pass changes the text, and for each pass an unchanged text has no markup of its kind; the property "text at rest" is an invariant of all token contents |
| C55 | `parseMath`, and the passes before it | a reading of a text (formulas and other characters, from left to right) exists and is unique; induction on the reading: the searched formula is always found first at its own place; for texts without markup that is read earlier, all earlier passes are shown to change nothing; refuted for formulas with two quotes or unbalanced brackets |
| C56 | the functions of `http.go` and `wikipedia.go` as trees of actions (a cache function under the mutex, or one system call), any number of workers, any interleaving, crashes and restarts (`ServiceModel.v`) | invariant: every cached file has the data that was delivered for a request which belongs to its name, and every worker continues according to a recursive predicate over its remaining actions; refuted for two wikis with one cache.  A worker that runs alone is shown to have the executions of `HttpModel.v` |
| C57 | `parseImages` with `escapeImages` | induction over the images of a text: the first link is found at the first image, its end by the bracket theorem (C07), the loop over the options by an invariant on the accumulated options; refuted for captions that look like options and for file names that end like a size |
| C58 | `parseGalleries`, `parseImageMaps` | induction over the lines with the state of the loop; the specification is an inductive relation between lines that covers every text; refuted for closing tags that are not alone in their line |
| C59 | `GenerateEpub`, `GenerateEpubWithGoLibrary` and the end of both commands; the EPUB library is a record of what it was given, and may fail at any call | induction over the files and fonts for every behaviour of the library; titles by a theorem on the greedy pattern; refuted for license, date, books without a cover, reused HTML, articles with a heading of the first level and statistics of standalone files |
| C60 | the whole way from `clean` over `tokenizeContent` to the HTML `Generate`, on documents given by a grammar (DocumentSpec.v: headings, paragraphs of several lines, lists of any depth, tables with attributes of their cells, pictures with sizes and captions (with links in them), lists of footnotes; links, formulas, pictures and footnotes in the text; single apostrophes within words and formulas; any number of blank lines before, between and behind the blocks) | the passes are followed one by one with the state of the document after each pass as invariant, in a judgement (JudgeProofs.v) that covers both what a run returns and that it does not fail; lists and tables by induction over their depth and their rows (DocumentListProofs.v, DocumentGridProofs.v); the keys are resolved by the theorem of C29; there is HTML exactly if all formulas have a picture, because the HTML with a picture that is too long for the result would be a different one (DocumentFormulaProofs.v); pictures by following `parseImages` through the options of the file (DocumentPictureProofs.v) and the path of the file through the sanitizer and the escaping (DocumentImageProofs.v); footnotes: the pass over references is the machine of C21 and C22 on the text, so each mark stands for one reference of the specification (DocumentNoteProofs.v), and its number is that of ReferenceSpec.v; refuted for paragraphs that are only a link or a formula or completely bold, for formulas with two opening braces, for headings with equal signs and for headings with footnotes (they are numbered apart and listed nowhere); texts with templates, comments and unwanted parts are reduced to this by C13 (`C60_templates_partial`) |
| C61 | `hackGermanRailwayTemplates` in `clean`; texts with nested tables as an inductive relation between a text and the text without frames (RailwaySpec.v) | induction over the relation; the loop works from the last table to the first; refuted for tables that contain something like the end of a table |
| C62 | the HTML generator; the HTML of each element as an inductive relation built from `element` and `attribute` (ShowSpec.v), with the path of an image as the path of the file that the download stores | induction on the fuel of the generator, with C29 for texts and an induction over lists; success from C29 |
| C63 | a run of `generateBookFromArticles` with all workers, each a sequence of cache accesses, requests and system calls (BookModel.v on top of ServiceModel.v, ArticleModel.v, HtmlModel.v, EpubModel.v), starting from any history of the cache; the tokenizer asks for the next template when all earlier ones are answered, the generator for formulas | an invariant over all steps: provenance of all cached files (C56), of the answers that a worker holds, and of every chapter file after it has been written (C35); refinement of the pool of C44 for the order; C60 and C59 for the content of the book |
| C64 | the cache machine of C35-C39, with all lookups and writes since the cache was empty (AgeSpec.v) | invariant: every cached file belongs to a write, and its time is not later than the end of that write (of its last use with LRU); C37 in terms of last uses follows from the same invariant |
| C65 | the download programs of HttpModel.v with every server answer and failure; the form decoder of a server (RequestSpec.v) | every request a program can send satisfies a predicate (induction over the program), query escaping is inverted by the form decoder, and the writes of the programs are followed to the answers |
| C66 | postProcessImage and the download over all hosts, with external programs that write any data | case analysis of the execution; the full claim is refuted by two histories (stale conversion, failed processing) |
| C67 | the runs of C63, with the list of the files that each worker has seen on the disk (BookFileProofs.v); the image elements of the pages of documents | an invariant over all steps: whatever was seen in the folder of the images is there, or a worker that has found it outdated brings it back before it goes on; the tags of a page are those of its document (BookDocProofs.v, BookImageProofs.v); refuted with eviction and for formulas with blanks in their names |
| C68 | documents as in C60, and the statistics generator of C33 (no new model); the things in a document (DocumentStatsSpec.v) | by induction over the parts of a document (DocumentStatsProofs.v): the text with keys of its tokens, followed into the tokens, contains the texts and things of the document in order; then C33; refuted for lists below the items of lists |
| C69 | `StatsJsonModel.v`: the JSON encoder of the Go library for the struct of the statistics; `JsonSpec.v`: JSON texts as in RFC 8259, as a relation between texts and values | the encoder is followed through the grammar (JsonProofs.v, JsonDecodeProofs.v, JsonObjectProofs.v); a text has only one value by induction over the grammar (JsonUniqueProofs.v); the bytes do not depend on the order of the links because inserting two keys commutes (StatsOrderProofs.v); refuted for names that are no UTF-8 |
| C70 | BookModel.v with the statistics generator; decoding a file is assumed to give what the file says (`decoded`, BookStatsSpec.v; C69 shows that this is only one thing) | C63 gives the files, C68 and C69 what is in them, C34 the combination |
| C71 | `StandaloneModel.v`: generateStandaloneEbook as one worker of BookModel.v that starts with the content of the file; `StandaloneSpec.v`: the title, and what the HTML is made of | the invariant of a worker (BookProofs.v) does not depend on where its text comes from; with C60 and C67 this gives the page and its pictures, with C59 the book; refuted if the working directory is that of the cache: two files whose names are equal up to the first dot |
| C72 | `RegexSpec.v`: regular expressions (classes, sequences, alternatives, greedy and lazy repetitions, groups, end of text) with their matches in the order of preference, leftmost search, search for all matches; the expressions of the program written in it | each recogniser of the model equals the search with its expression, for all texts; the list of matches is exactly what the expression can read (`C72_semantics`) |
| C73 | no new model; `CleanupSpec.v`: the relations of C08 to C12 and C61 one after the other | each step is what its relation says (C08 to C12, C61), and every relation determines its result (CleanupProofs.v), so the composition is the cleanup; C60, C63, C67, C68, C70 and C71 speak about texts that become documents by these rules; a second cleanup can remove more: refuted |
| C74 | `LockModel.v`: the programs of `ServiceModel.v`, but a worker does one system call at a time, the mutex only keeps two workers from being within `GetFile` or `CacheToFile` at once | invariant: files outside of the directory for temporary files have a sound origin; the worker within `CacheToFile` follows a recursive predicate over its remaining calls, which says what its own temporary file holds (`tidy`) and that only a complete one is moved; the temporary file of nobody else is touched (`LockProofs.v`). `C74_more_executions`: the executions of C56 are among these |
| C75 | `SliceModel.v`: arrays, slices, `append` in place or into a new array of any capacity; both functions of `formatting.go` on this memory | invariant: work on a stack only changes what lies behind its end, and new arrays (`kept`); by induction over the text the stack in memory is that of `FormattingModel.v`; all indices are within the text by C16. `SliceLineModel.v`: `parseImageMaps` with deletion of lines in place; the lines before the index are the result so far, those behind it the rest of the recursion in `ImageModel.v`. `ListLoopModel.v`: `parseLists` with its index over lines that are replaced, the lines before the index are the result so far; `TableLoopModel.v`: the same for `parseTables` and `tokenizeTables`, a nested table moves the index |
| C76 | `OnceSpec.v` (what one process does, with `LockModel.v`) | refuted by an execution of two workers; proved: when the data is found, no request is reachable any more (`silent`), and data that is in the cache stays there and is found (`tame`, `OnceProofs.v`) |
| C77 | `LimitSpec.v` (executions of `LockModel.v` with a fixed maximum size) | invariant over the rest of the function that holds the lock; refuted with conversion of images |

Properties that are marked "partial" in `MANIFEST.json` are mostly properties that are **false** for the code as it is.  For each of them there is a
theorem `..._refuted` with a concrete witness, and the positive theorem is proved under a condition that excludes the defect and is spelled out in the
statement.  Section 5 lists the defects.

## 3. Trusted base

* The kernel of Coq 8.16.1 (`coqc`), including its conversion with `vm_compute`, which some examples use.
* **Axioms: none.**  `Print Assumptions` follows every theorem in `Prop*.v` and says "Closed under the global context" for each of them, so also for
  each theorem named in `MANIFEST.json`.  No kernel check is switched off; there is no `Axiom`, `Parameter`, `Admitted`, functor or module type.  (A
  report over all loaded libraries may list constants like `Coq.ssr.ssrunder.Under_rel` of the standard library, which are loaded with the tactic
  languages; no theorem depends on them.)
* The correspondence between the Go code and the `*Model.v` files, which was established by reading.  Every definition there cites the modelled lines.
* The meaning of the specifications in `*Spec.v`, and of the statements in `Prop*.v`.

## 4. What is modelled and what is not

| Go file | model | not modelled |
|---------|-------|--------------|
| `util/string.go`, `collections.go`, `hash.go` | `UtilModel.v` (SHA-1 and MD5 are parameters) | |
| `util/files.go` | `UtilModel.v` (names and the guard), `CacheModel.v` (`OsFilesystem` as a relation on a world of files), `MainModel.v` (absolute paths) | relative paths, `AssertPathExists`, permissions, links |
| `util/cmd.go`, `image/image.go` | `MainModel.v` (the arguments of the command) | running the command |
| `image/svg.go` | `SvgModel.v` | the XML decoder (its result is a parameter) |
| `cache/cache.go` | `CacheModel.v`: every system call is a step and may fail; a crash is possible between any two steps | in `ServiceModel.v` and `BookModel.v` calls of `CacheToFile` and `GetFile` are single actions, mixed with the other actions of all workers; `LockModel.v` has the mutex itself, with single system calls mixed; that Go's mutex excludes is assumed |
| `http/http.go`, `wikipedia/wikipedia.go` | `HttpModel.v`, for concurrent workers `ServiceModel.v`; the answers of servers are part of the world | headers, TLS, decoding of JSON (a parameter) |
| `config/config.go`, `config/project.go` | `ConfigModel.v`: options as three functions from option names to values | JSON syntax, command line syntax, printing |
| `parser/util.go` | `BracketModel.v` | |
| `parser/cleaner.go`, `parser/hacks.go` | `CleanerModel.v` | |
| `parser/template.go` | `TemplateModel.v`; the order of iteration over the map is arbitrary | |
| `parser/formatting.go` | `FormattingModel.v`, `ParagraphModel.v`; with the memory of the slices: `SliceModel.v` | |
| `parser/heading.go`, `nowiki.go`, `math.go` | `HeadingModel.v` | |
| `parser/link.go`, `image.go`, `list.go`, `table.go`, `reference.go` | `LinkModel.v`, `ImageModel.v`, `ListModel.v`, `TableModel.v`, `ReferenceModel.v` | |
| `parser/tokenizer.go` | `TokenModel.v`, `TokenizerModel.v`, `ArticleModel.v` | |
| `parser/pattern.go` | the regular expressions are recognisers next to their uses; `PropRegex.v` proves each of them equal to its expression in the semantics of `RegexSpec.v` | Go's regexp engine itself (that it implements this semantics is assumed), Unicode case folding (with the flag i, Go lets the long s and the Kelvin sign match s and k), `unwantedHtmlRegex` (its use is disabled in the program), the expression in `image/svg.go` (part of the XML decoder, a parameter) |
| `generator/expand.go`, `html.go` | `ExpandModel.v`, `HtmlModel.v` | |
| `generator/stats.go` | `StatsModel.v` (with UTF-8 decoding), `StatsJsonModel.v` (JSON encoding) | JSON decoding (what it must do is an assumption); the Unicode tables (`IsLetter`, `IsNumber` are a parameter) |
| `generator/epub.go` | `MainModel.v` (arguments for pandoc), `EpubModel.v` | pandoc; the EPUB library (only what it is given, failures are arbitrary), in particular the embedding of images |
| `main.go` | `PoolModel.v` (workers, channel, wait group), `BookModel.v` (the workers with everything they do on the disk and the network), `StandaloneModel.v` (the command for one file), `MainModel.v` (reuse of HTML files, output path) | command line parsing, profiling, log output |

Simplifications, which are also stated in the comments of the definitions:

* `strings.ToLower` and case-insensitive comparison work on ASCII letters only; bytes from 128 on stay as they are.  For the tags that the parser looks for this is
  exact (they are compared with windows of a fixed number of bytes).  For file prefixes in other alphabets it is not.
* Numbers (sizes, times, counters) are unbounded.
* Invalid UTF-8 is kept by the functions that decode runes, except in the statistics, where decoding is modelled exactly.
* Loops that do not obviously end take fuel.  `OutOfFuel` is not an outcome of the Go program: C53 shows that enough fuel exists (or, for the one loop that can run
  forever, models that loop as a relation without fuel).
* The worker pool of C44 treats the work on one article as one step of arbitrary length; in the model of the whole book (C63) it is a sequence of actions.  There, formulas may be asked for in any order, also
  ones that are not in the article; the size of a picture, which the program reads from the SVG file, is arbitrary.

## 5. Defects found

All are theorems (`*_refuted*`) unless marked with (*), which were seen in the model only.

* C03: the path guard accepts a component like `%3%25C`, which decodes to an escape code.  C04: the names `.` and `..` leave the cache folder.
* C05: lists with repeated elements are compared wrongly, which also makes C46 fail for reordered default lists.
* C09: a colon in the text of a link makes it an unwanted link; an unclosed link crashes.  C10: trailing templates lose their arguments.
* C12: a line of bold text is taken for a heading when empty sections are removed.
* C13, C53: a text that contains the beginning of a template placeholder makes the program run forever.
* C14: two opening braces at the very end are accepted.
* C18: an image closed by a single bracket swallows the first character of what follows and destroys a token key.
* C19: fourteen short texts crash the tokenizer (unclosed tags, tables, images, empty link targets), two crash the cleanup.
* C20: the marker is removed from the middle of a heading.  C21, C22: a footnote directly behind a list of footnotes is numbered anew; adjacent footnotes in a list
  crash; of two texts for one name the first is lost.
* C24: cells that begin with a minus sign or contain exclamation marks are lost; heading cells of several lines become data cells; an alignment without semicolon is lost.  In `! a || b` the second cell is a data
  cell; `|||b` loses the first, empty cell; of a cell with two bars all text behind the second one is lost.
* C26: unclosed and nested single brackets get an additional closing bracket.
* C29, C30: text like the name of a marker between two tokens is taken for a marker; two dollar signs in the text make HTML generation fail.
* C31: the text of links with other protocols than HTTP is dropped.
* C32: image names with a colon, and an image named like the conversion of another one, give wrong files; eviction removes files that are still needed.
* C33: statistics ignore everything in lists inside of list items.  C34: names are compared as written.
* C36-C38: the size of a file is counted twice, so that too much is evicted, and large files cannot be cached at all (crash).
* C40: a file can be evicted by another worker before it is read.  C41: repeated POST requests have no data.
* C43: the second host is not asked for an image article that is cached for the first one; no hosts at all is a success.
* C44: an article that is listed twice has one empty chapter path.  C45: existing HTML is looked for in the wrong folder, and its path is not used.
* C46: an explicitly given default value is ignored.  C47: valid combinations are rejected since each layer is checked alone.
* C48: absolute font paths and executables are changed; paths of the command line are relative to the project file.
* C49: absolute sizes are overwritten, and a relative height alone is kept.  C50: blanks in paths split arguments.  C51: the output file of a project is ignored in some cases.
* C54: a short reference tag without a name stays in the text, as does an image map that only begins a table cell after blanks are cut off.
* C55: other markup is read inside of formulas: the quotes of derivatives become markers of italic text, half-open intervals get a closing bracket, lines between
  equality signs become headings.
* C56: the names of cached articles, templates and formulas do not contain the wiki, so that a run for another wiki gets the articles of the first one.
* C57: captions that begin with `mini`, `thumb` or the name of an ignored option (the shipped configuration ignores `page`, `top`, `sub`, ...) or that end with `px` are lost; without the prefix `file` in the configuration all images disappear.
* C58: a gallery in one line turns all text behind it into images, a blank behind the closing tag of an image map deletes all text behind it, and an image map of an ignored type leaves `[[]]`.
* C59: the internal driver ignores license, date and the depth of the table of contents, needs a cover image, and takes everything up to the last heading of the first level as title of a section; `standalone` with an output type for statistics always fails after all the work is done.
* C60: a paragraph that consists of a link or a formula only gets no break before or behind it; two opening braces in a formula are sent to the template service, whose answer is put into the formula; a completely bold paragraph before a heading is lost; two equal signs within a heading are lost.
* C73: a section in which there is only an empty section is left empty, the cleanup would have to be repeated.
* C76: two workers that need the same data at the same time both download it, the lock is not held from looking up to storing.
* C77: the program that converts an image or a formula writes into the cache without regard to its maximum size, and so do the programs that change images.
* C61: an empty last argument of a template within a railway table is taken for the end of the table, and the article fails; the same happens with the end of an inner table.
* C64: with the LRU strategy each lookup renews the time of the file, so that data that is used regularly never expires, whatever the maximum age is.
* C66: the PNG conversion of an SVG, PDF or WebP image is never renewed: when the image is downloaded again after its expiry, the book still shows the conversion of the old one.
* C66: when the processing command fails, the unprocessed image stays in the cache. The next run succeeds and uses it unprocessed.
* C63: the HTML files of a run are in the cache, so that later chapters evict earlier ones and there is no book.
* C67: pictures are evicted by the pages that show them; blanks in the names of pictures of formulas become plus signs in the HTML, so that the pictures are not found.
* C68: nothing below the items of lists is counted.
* C69: link names that are no UTF-8 are replaced, so that different links may get the same name in the file.
* C71: of two files whose names are equal up to the first dot, the second one gets the HTML of the first one (if the working directory is that of the cache).

## 6. Wrong programs

`seeded/LOG.jsonl` lists edits of the model that stand for realistic bugs, each with the claim that it breaks and the theorems that failed.  The edits were made in a copy of the
model; the proofs of all lemmas that failed were replaced by `Admitted`, and a theorem counts as failed if its `Print Assumptions` then lists one of them.

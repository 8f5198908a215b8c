{"id": "C01", "title": "Cache file names never collide", "statement": "Two different article, image, formula or template names are never mapped to the same file name by the filename sanitizer, so one cached item can never be served for another.", "quantifier": "all pairs of byte strings used as a file name", "why_tests_cant": "The sanitizer is ten sequential global replacements; a collision would need an adversarial pair of names, and the set of pairs is infinite.", "anchors": ["src/util/files.go:SanitizeFilename"]}
{"id": "C02", "title": "Sanitized names are accepted by the filesystem guard", "statement": "The output of the sanitizer contains none of < > : \" / \\ | ? * and every % in it starts one of the ten escape codes, and the 'is this path sanitized' guard used before every file access accepts it (so no file operation is refused because of a strange title).", "quantifier": "all byte strings used as a file name", "why_tests_cant": "Interaction of ten sequential replacements with ten sequential deletions over arbitrary strings; escapes could join up in unforeseen combinations.", "anchors": ["src/util/files.go:SanitizeFilename", "src/util/files.go:IsSanitized"]}
{"id": "C03", "title": "The filesystem guard rejects every unsafe path", "statement": "A path accepted by the guard contains none of the reserved characters < > : \" \\ | ? *. (The stronger reading, that the guard accepts only components the sanitizer can produce, is also examined.)", "quantifier": "all paths (byte strings)", "why_tests_cant": "Universal over all paths; deletion of escape codes might hide a reserved character.", "anchors": ["src/util/files.go:IsSanitized"]}
{"id": "C04", "title": "Cached files stay inside their cache folder and have distinct paths", "statement": "The path computed for an item in a cache folder is a direct child of <cache dir>/<folder>, and two different (folder, name) pairs get two different paths.", "quantifier": "all cache folders and all names (byte strings)", "why_tests_cant": "Requires reasoning about lexical path cleaning for arbitrary names, including . and ..", "anchors": ["src/cache/cache.go:GetFilePathInCache", "src/cache/cache.go:GetRelativeFilePathInCache", "src/util/files.go:SanitizeFilename"]}
{"id": "C05", "title": "Order-insensitive list comparison", "statement": "The comparison that decides whether a list-valued option still has its default value answers true exactly when both lists hold the same elements, and does not depend on the argument order.", "quantifier": "all pairs of string lists", "why_tests_cant": "Universal over lists with arbitrary repetitions.", "anchors": ["src/util/collections.go:EqualsInAnyOrder"]}
{"id": "C06", "title": "Duplicate removal", "statement": "Removing duplicates from a list keeps exactly one copy of each element, in the order of first appearance.", "quantifier": "all lists of strings", "why_tests_cant": "Universal over list lengths and repetition patterns.", "anchors": ["src/util/collections.go:RemoveDuplicates"]}
{"id": "C07", "title": "Bracket matching returns the matching closing token", "statement": "Given a text, a start position and an opening and closing token, the matcher returns the position of the first closing token that is not paired with an opening token after the start position, and reports 'not found' exactly when there is none; a returned position is within the text and really carries the closing token.", "quantifier": "all texts, start positions and token pairs", "why_tests_cant": "Nesting depth and text are unbounded.", "anchors": ["src/parser/util.go:FindCorrespondingCloseToken", "src/parser/util.go:FindCorrespondingCloseTokenIgnoreCase", "src/parser/util.go:findCorrespondingCloseToken"]}
{"id": "C08", "title": "HTML comments are removed and nothing else", "statement": "Cleaning a text in which comments are properly delimited yields the text with exactly the comments removed (plus the one newline directly before a comment); a text without a comment end marker is returned unchanged.", "quantifier": "all texts, with any number of comments of any length", "why_tests_cant": "Number, size and placement of comments are unbounded.", "anchors": ["src/parser/cleaner.go:removeComments"]}
{"id": "C09", "title": "Unwanted internal links are removed and nothing else", "statement": "Cleaning removes exactly the [[...]] links whose namespace prefix is neither allowed nor a file prefix, recursively inside kept links, and keeps all other characters.", "quantifier": "all texts and all configurations of allowed prefixes", "why_tests_cant": "Texts, nesting and configurations are unbounded.", "anchors": ["src/parser/cleaner.go:removeUnwantedInternalLinks"]}
{"id": "C10", "title": "Ignored templates disappear, trailing templates move to the end, everything else stays", "statement": "Templates whose name starts with a configured ignored name are removed; templates configured as trailing are moved to the end of the text, one after the other in order of appearance; the rest of the text stays as it is.", "quantifier": "all texts and all configurations of ignored and trailing templates", "why_tests_cant": "Texts, nesting and configurations are unbounded.", "anchors": ["src/parser/cleaner.go:handleUnwantedAndTrailingTemplates"]}
{"id": "C11", "title": "Empty list entries are dropped, all other lines are kept", "statement": "After cleaning, no line consists only of list characters, every other line is kept in order (trimmed), and cleaning again changes nothing.", "quantifier": "all texts", "why_tests_cant": "Universal over texts of any number of lines.", "anchors": ["src/parser/cleaner.go:removeEmptyListEntries"]}
{"id": "C12", "title": "Removing empty sections never loses text", "statement": "Every non-blank line that is not a heading survives, in order; a heading is removed only if there is nothing but blank lines between it and the next heading of the same or a higher level (or the end).", "quantifier": "all texts with any number and nesting of headings", "why_tests_cant": "Section structure is unbounded.", "anchors": ["src/parser/cleaner.go:removeEmptySections", "src/parser/cleaner.go:walkSection", "src/parser/cleaner.go:headingDepth"]}
{"id": "C13", "title": "Template evaluation result does not depend on map iteration order", "statement": "Whatever order the placeholder map is iterated in, evaluating the templates of an article terminates with the same text, in which every template is replaced by its (recursively substituted) evaluation.", "quantifier": "all articles, all answers of the template service, all iteration orders in every round", "why_tests_cant": "Go randomises map iteration; a test sees a handful of orders only.", "anchors": ["src/parser/template.go:evaluateTemplates", "src/parser/template.go:replaceTemplateByPlaceholders"]}
{"id": "C14", "title": "The template service only sees templates without nested templates, and unclosed templates are an error", "statement": "Each request to the template service is for a {{...}} text with no further {{ inside; if a template is not closed an error is returned and nothing crashes.", "quantifier": "all articles and all answers of the template service", "why_tests_cant": "Nesting is unbounded and the answers are external.", "anchors": ["src/parser/template.go:replaceTemplateByPlaceholders"]}
{"id": "C15", "title": "Bold and italic markup is always balanced and properly nested", "statement": "However quotes are placed, the bold/italic open and close markers inserted by the formatting pass are balanced and properly nested, so the generated <b>/<i> elements never overlap.", "quantifier": "all texts", "why_tests_cant": "The pass is a backtracking search; quote sequences are unbounded.", "anchors": ["src/parser/formatting.go:parseBoldAndItalic", "src/parser/formatting.go:tokenizeBoldAndItalic"]}
{"id": "C16", "title": "Bold and italic parsing keeps the text", "statement": "The formatting pass only replaces runs of quotes by markers: deleting the inserted markers and all apostrophes from the result gives the input without its apostrophes.", "quantifier": "all texts", "why_tests_cant": "Universal over texts and quote placements.", "anchors": ["src/parser/formatting.go:parseBoldAndItalic"]}
{"id": "C17", "title": "Token keys are unique", "statement": "No two tokens created while parsing an article share a key, so one piece of markup can never overwrite another one.", "quantifier": "all sequences of token creations", "why_tests_cant": "History of token creations is unbounded.", "anchors": ["src/parser/tokenizer.go:getToken", "src/parser/tokenizer.go:setToken", "src/parser/tokenizer.go:setRawToken"]}
{"id": "C18", "title": "Every token key in a parsed article can be resolved", "statement": "If the wikitext contains no dollar sign, every token key in the parsed content and in the content of every token is a key of the token map, so generating the book does not fail with an unknown token key.", "quantifier": "all articles without dollar sign, all template service answers without dollar sign", "why_tests_cant": "A dozen mutually recursive passes cut and reassemble the text; the combinations are unbounded.", "anchors": ["src/parser/tokenizer.go:tokenizeContent", "src/parser/tokenizer.go:Tokenize", "src/generator/expand.go:expandString"]}
{"id": "C19", "title": "Parsing never crashes", "statement": "Parsing any wikitext returns a parsed article or an error; it never panics.", "quantifier": "all wikitexts", "why_tests_cant": "Universal over all texts; tests only contain mostly well-formed markup.", "anchors": ["src/parser/tokenizer.go:Tokenize", "src/parser/cleaner.go:removeUnwantedInternalLinks", "src/parser/link.go:parseLink", "src/parser/nowiki.go:parseNowiki", "src/parser/reference.go:parseReferences", "src/parser/table.go:tokenizeTableRow", "src/parser/image.go:escapeImages"]}
{"id": "C20", "title": "Headings", "statement": "A line ==title== with n equal signs on both sides becomes a heading of level n with that title, for n from 1 to 7, every other line stays untouched and the number of lines does not change.", "quantifier": "all texts", "why_tests_cant": "Universal over all lines and contents.", "anchors": ["src/parser/heading.go:parseHeadings"]}
{"id": "C21", "title": "Footnote numbers are consistent", "statement": "Within a group, footnote numbers are consecutive starting with the first, are given in order of first appearance, two footnotes have the same number exactly when they have the same name, and the listed definition carries the number of its usages.", "quantifier": "all sequences of footnote usages, definitions and footnote lists", "why_tests_cant": "The number and order of references is unbounded.", "anchors": ["src/parser/reference.go:parseReferences"]}
{"id": "C22", "title": "Footnote definitions are listed exactly once", "statement": "A footnote list shows every definition given before it (or inside it) exactly once, sorted by number, and no usage points to a missing definition if the article defines it.", "quantifier": "all sequences of footnote usages, definitions and footnote lists", "why_tests_cant": "The number and order of references is unbounded.", "anchors": ["src/parser/reference.go:parseReferences", "src/parser/reference.go:getReferencePlaceholder"]}
{"id": "C23", "title": "Lists keep all their items, in order and at the right depth", "statement": "Every line of a list becomes exactly one item (or a head and a description, if it has the form ;head:description) with the text of the line, nested in the lists given by its list characters, in the original order; the only other items are empty ones for levels that the text skips; lines that belong to no list stay; list parsing terminates.", "quantifier": "all lists of any length and nesting", "why_tests_cant": "Universal over list shapes.", "anchors": ["src/parser/list.go:parseLists", "src/parser/list.go:tokenizeList"]}
{"id": "C24", "title": "Tables keep their cells", "statement": "Every cell of a well-formed table ends up in the parsed table at its row and column with its text, as a heading or data cell, and with its column span, row span and text alignment.", "quantifier": "all tables of any size", "why_tests_cant": "Universal over table shapes.", "anchors": ["src/parser/table.go:tokenizeTable", "src/parser/table.go:tokenizeTableRow", "src/parser/table.go:tokenizeTableEntry"]}
{"id": "C25", "title": "Internal links", "statement": "[[target|text]] becomes a link to target with that text, [[target]] a link showing the target; text outside of links is unchanged.", "quantifier": "all texts, targets and link texts", "why_tests_cant": "Universal over texts.", "anchors": ["src/parser/link.go:parseInternalLinks", "src/parser/link.go:parseLink"]}
{"id": "C26", "title": "Text in single brackets that is no link stays unchanged", "statement": "The external link pass leaves bracketed text that is no external link exactly as it is.", "quantifier": "all texts", "why_tests_cant": "Universal over texts.", "anchors": ["src/parser/link.go:parseExternalLinks", "src/parser/link.go:parseLink"]}
{"id": "C27", "title": "Paragraph detection keeps all lines", "statement": "Paragraph parsing keeps every non-blank line in order and only adds paragraph markers, never before the first line and never next to a block element.", "quantifier": "all texts", "why_tests_cant": "Universal over texts of any number of lines.", "anchors": ["src/parser/formatting.go:parseParagraphs"]}
{"id": "C28", "title": "nowiki content is kept verbatim", "statement": "The text between <nowiki> and </nowiki> is stored verbatim and is not interpreted by any later pass.", "quantifier": "all texts", "why_tests_cant": "Universal over texts.", "anchors": ["src/parser/nowiki.go:parseNowiki"]}
{"id": "C29", "title": "Token expansion replaces every token key by its content", "statement": "Expanding a text that consists of plain text and known token keys gives exactly the concatenation of the plain text and the expanded tokens, in order; an unknown key is an error.", "quantifier": "all texts and token maps, any nesting of tokens", "why_tests_cant": "Nesting of tokens is unbounded.", "anchors": ["src/generator/expand.go:expandString", "src/generator/expand.go:expand"]}
{"id": "C30", "title": "Generated HTML is well nested", "statement": "If the plain text in the tokens contains no angle brackets and the inline markers are balanced inside each text, the generated HTML body is a well-nested sequence of elements.", "quantifier": "all token trees of any depth", "why_tests_cant": "Universal over documents.", "anchors": ["src/generator/html.go:HtmlGenerator"]}
{"id": "C31", "title": "No text is lost by HTML generation", "statement": "The text of every token reachable from the parsed article occurs in the generated HTML.", "quantifier": "all token trees", "why_tests_cant": "Universal over token kinds and nestings.", "anchors": ["src/generator/expand.go:expandToken", "src/generator/html.go:HtmlGenerator"]}
{"id": "C32", "title": "HTML image references point to the stored image file", "statement": "For every image the path written into the HTML is the path, relative to the cache directory, of the file that downloading and post-processing this image has produced.", "quantifier": "all image names and all conversion settings", "why_tests_cant": "Two separately written computations must agree for every name and setting.", "anchors": ["src/generator/html.go:filenameToImagePath", "src/wikipedia/wikipedia.go:postProcessImage", "src/wikipedia/wikipedia.go:downloadImage"]}
{"id": "C33", "title": "Article statistics count everything", "statement": "The statistics of an article count every internal link of the article, including those nested in lists, tables, captions and footnotes.", "quantifier": "all token trees", "why_tests_cant": "Universal over documents.", "anchors": ["src/generator/stats.go:StatsGenerator"]}
{"id": "C34", "title": "Combined statistics are the sums", "statement": "The combined statistics are the sums of the article statistics, and the set of uncovered links is exactly the set of linked article names that are not names of articles of the book; the ten most frequent ones are reported.", "quantifier": "all lists of article statistics", "why_tests_cant": "Universal over lists.", "anchors": ["src/generator/stats.go:GenerateCombinedStats"]}
{"id": "C35", "title": "Cache writes are crash-atomic", "statement": "Whenever the process dies during a cache write, the target file has either its complete old content (or is absent) or its complete new content; other cached files are unchanged or removed, never modified.", "quantifier": "all crash points, all contents, all cache states", "why_tests_cant": "A test cannot kill the process at every instruction.", "anchors": ["src/cache/cache.go:CacheToFile"]}
{"id": "C36", "title": "The cache never exceeds its configured maximum size", "statement": "If the cache is below its maximum size, it is below it after every sequence of cache reads and writes, whatever the eviction strategy.", "quantifier": "all histories of cache operations, all file sizes, both strategies", "why_tests_cant": "Histories are unbounded.", "anchors": ["src/cache/cache.go:CacheToFile", "src/cache/cache.go:deleteFilesFromCacheIfNeeded"]}
{"id": "C37", "title": "Eviction order", "statement": "With the LRU strategy the evicted files are the ones that were not used for the longest time (a use is a write or a lookup that finds the file), with the largest-file strategy the largest ones; a file kept is never older (smaller) than an evicted one would require; files are only evicted while the limit is exceeded.", "quantifier": "all cache states and limits, and all histories of lookups and writes", "why_tests_cant": "Universal over cache contents.", "anchors": ["src/cache/cache.go:deleteFilesFromCacheIfNeeded", "src/cache/cache.go:deleteLargestFileFromCache", "src/cache/cache.go:deleteLruFileFromCache"]}
{"id": "C38", "title": "A file that fits can be cached", "statement": "Writing a file whose size is below the maximum cache size succeeds (files are evicted when needed).", "quantifier": "all cache states and file sizes", "why_tests_cant": "Universal over cache states.", "anchors": ["src/cache/cache.go:CacheToFile", "src/util/files.go:FindLargestFile", "src/util/files.go:FindLruFile"]}
{"id": "C39", "title": "Outdated files are never served", "statement": "A cache lookup reports a hit exactly when the file exists and is not older than the maximum age; an outdated file is removed and other files are untouched.", "quantifier": "all cache states and ages", "why_tests_cant": "Universal over states and times.", "anchors": ["src/cache/cache.go:GetFile"]}
{"id": "C40", "title": "A file returned by a successful download can be read", "statement": "After a successful download-and-cache call the file at the returned path exists with the downloaded content until the caller reads it, for every interleaving with other worker threads.", "quantifier": "all schedules of concurrent workers", "why_tests_cant": "Depends on the schedule.", "anchors": ["src/http/http.go:DownloadAndCache", "src/wikipedia/wikipedia.go:DownloadArticle", "src/cache/cache.go:CacheToFile"]}
{"id": "C41", "title": "Throttled requests are retried until answered", "statement": "A request is repeated exactly as long as the server answers 429, waiting the announced number of seconds (2 if unknown) in between, and the first other answer decides: status 200 without API error header is a success, anything else an error.", "quantifier": "all sequences of server answers", "why_tests_cant": "Answer sequences are unbounded.", "anchors": ["src/http/http.go:doRequest"]}
{"id": "C42", "title": "Cached files are not downloaded again, failed downloads are never cached", "statement": "A download-and-cache call for a fresh cached file sends no request; a failed request leaves the cache unchanged; after a success the cache holds exactly the response body under that name.", "quantifier": "all cache states, all server behaviours, all histories", "why_tests_cant": "Universal over histories.", "anchors": ["src/http/http.go:DownloadAndCache"]}
{"id": "C43", "title": "Image sources are tried in order", "statement": "Downloading an image asks the configured hosts in order and stops at the first success; an error is reported exactly when no host delivers the image.", "quantifier": "all host lists and server behaviours", "why_tests_cant": "Universal over host lists.", "anchors": ["src/wikipedia/wikipedia.go:downloadImageUsingAllSources"]}
{"id": "C44", "title": "The book contains the articles in project order for every schedule", "statement": "However the worker threads are scheduled, article processing finishes, and chapter k of the book is the result of processing the k-th article of the project.", "quantifier": "all numbers of articles and workers and all interleavings", "why_tests_cant": "Schedules are unbounded.", "anchors": ["src/main.go:generateBookFromArticles"]}
{"id": "C45", "title": "Already generated HTML is reused", "statement": "If the HTML of an article already exists, its path is handed over to the book generation.", "quantifier": "all articles and cache states", "why_tests_cant": "Universal over states.", "anchors": ["src/main.go:processArticle", "src/main.go:shouldRecreateHtml"]}
{"id": "C46", "title": "Configuration precedence", "statement": "The effective value of each option is the command line value if given, else the project file value if given, else the configuration file value if given, else the default.", "quantifier": "all combinations of values in the four layers", "why_tests_cant": "The product of four layers and about forty options is far too large to test.", "anchors": ["src/config/config.go:MergeIntoCurrentConfig", "src/config/config.go:LoadConfig", "src/main.go:main"]}
{"id": "C47", "title": "Only valid configurations are accepted", "statement": "A configuration that passes validation satisfies all documented restrictions and every documented valid configuration passes.", "quantifier": "all configurations", "why_tests_cant": "Universal over configurations.", "anchors": ["src/config/config.go:AssertValidity", "src/config/config.go:VerifyOutputAndDriver"]}
{"id": "C48", "title": "Relative paths are resolved, absolute paths are kept", "statement": "When a configuration is loaded, relative file paths are resolved against the directory of the configuration file and absolute paths stay as they are.", "quantifier": "all paths", "why_tests_cant": "Universal over paths.", "anchors": ["src/config/config.go:makePathsAbsolute"]}
{"id": "C49", "title": "SVG size normalisation", "statement": "If width or height of an SVG is missing or relative, both become the absolute size of the view box; if both are absolute already the file stays unchanged.", "quantifier": "all width, height and view box values", "why_tests_cant": "Universal over attribute values.", "anchors": ["src/image/svg.go:MakeSvgSizeAbsolute", "src/image/svg.go:replaceRelativeSizeByViewboxSize"]}
{"id": "C50", "title": "External image tools get each path as one argument", "statement": "For every command template, the external program is started with exactly the words of the template, where each {INPUT} and {OUTPUT} is replaced by the path inside of its word; a path never spreads over several arguments.", "quantifier": "all templates, input paths and output paths", "why_tests_cant": "Universal over paths, including those with spaces or braces.", "anchors": ["src/image/image.go:ConvertToPng", "src/image/image.go:ResizeAndCompressImage", "src/util/cmd.go:ExecuteCommandWithArgs"]}
{"id": "C51", "title": "The result is written to the wanted file", "statement": "The book or statistics are written to the file wanted by the user: the command line value, else the value in the project file, else the default name; if it is a folder, to the default name inside of this folder. Relative paths are relative to the working directory for the command line and to the project file for projects.", "quantifier": "all output types, paths and working directories", "why_tests_cant": "Universal over paths and combinations.", "anchors": ["src/main.go:ensurePathsAndClearTempDir", "src/main.go:generateProjectEbook", "src/main.go:initialize"]}
{"id": "C52", "title": "Pandoc gets all settings and all chapters in order", "statement": "Read by the rules of the pandoc command line, the arguments consist of exactly the configured settings and metadata and, as input files, the chapters in order.", "quantifier": "all settings, metadata and lists of chapters whose paths do not start with a hyphen", "why_tests_cant": "Universal over lists and values.", "anchors": ["src/generator/epub.go:GenerateEpubWithPandoc"]}
{"id": "C53", "title": "Parsing ends on every text", "statement": "Converting a wikitext into an article always ends: the cleanup and the parser, including all nested calls for links, headings, lists, tables, captions and references and the repetition until nothing changes, return after finitely many steps an article, an error or a crash, and the result is unique.", "quantifier": "all configurations, all wikitexts (any bytes, any nesting) and all states of the tokenizer", "why_tests_cant": "Termination for every input text; the loop repeats until a fixed point is reached, and every pass calls the whole parser recursively on parts that the pass itself has changed.", "anchors": ["src/parser/tokenizer.go:tokenizeContent", "src/parser/tokenizer.go:Tokenize", "src/parser/cleaner.go:clean"]}
{"id": "C54", "title": "No wiki markup that the parser knows is left in a parsed article", "statement": "When parsing an article succeeds, then neither its text nor the text of any of its parts (titles of headings, texts of links and footnotes, captions, list items, table cells) contains any of the following at any place: a heading line, a line of a list, the beginning of a table, tags of galleries and image maps, double opening brackets, a link to a web page with a text, a formula, a nowiki area, a footnote with text, a named footnote mark, an open footnote tag, or an empty line. Only short footnote marks without a name and apostrophes that are not closed may be left.", "quantifier": "every configuration whose file prefixes are non-empty words without closing brackets, every wikitext (of any length and nesting), every state of the tokenizer, every answer of the template service", "why_tests_cant": "the passes rewrite the text repeatedly and in turn, and what one pass inserts may become markup for another one; whether the loop stops only when nothing is left has to hold for every text, not for the ones in the test suite", "anchors": ["src/parser/tokenizer.go: tokenizeContent, Tokenize", "src/parser/heading.go: parseHeadings", "src/parser/link.go: parseInternalLinks, parseExternalLinks", "src/parser/reference.go: parseReferences", "src/parser/image.go: parseGalleries, parseImageMaps, parseImages", "src/parser/list.go: parseLists", "src/parser/table.go: parseTables", "src/parser/math.go: parseMath", "src/parser/nowiki.go: parseNowiki", "src/parser/formatting.go: parseParagraphs"]}
{"id": "C55", "title": "Formulas reach the renderer exactly as they are written", "statement": "Reading an article from left to right, every <math> tag with its attributes on one line, together with everything up to the next </math>, is one formula, and nothing else is. Every formula of an article becomes one formula of the parsed article with exactly the written text, in the order of the article, and the text around the formulas stays as it is.", "quantifier": "every wikitext with any number of formulas and any characters in them, every state of the tokenizer, every configuration", "why_tests_cant": "formulas may contain any characters, also those of other markup, of other formulas or of placeholders, and equal formulas may occur several times in any order; the replacement searches for the text of a formula, not for its place", "anchors": ["src/parser/math.go: parseMath", "src/parser/pattern.go: mathRegex", "src/parser/tokenizer.go: tokenizeContent, getToken, setRawToken"]}
{"id": "C56", "title": "Cached answers belong to the request", "statement": "Several workers download articles, images, templates and formulas at the same time into one cache, and later runs use the same cache, also after crashes. Every article that a worker gets was delivered completely by a server for exactly this title on the requested wiki; every expanded template was delivered for exactly this template, and every name of a formula was given by a server that received exactly this formula.", "quantifier": "every number of workers and every list of jobs of any number of runs, every interleaving of their actions, every failing system call, every crash point, every answer of the servers, every eviction", "why_tests_cant": "interleavings, failures and crashes of several processes on one cache are unbounded; a test runs one order of actions on a fresh cache", "anchors": ["src/cache/cache.go: CacheToFile, GetFile, cacheWriteMutex", "src/http/http.go: DownloadAndCache, doRequest", "src/wikipedia/wikipedia.go: DownloadArticle, DownloadImages, EvaluateTemplate, RenderMath, getMathResource", "src/main.go: generateBookFromArticles"]}
{"id": "C57", "title": "Images keep their file, size and caption", "statement": "Every image of the wikitext becomes one image of the parsed article, with the file name as the wiki stores it, the size of its last size option and the caption that is its last text; images with a frame or of a large size are blocks, others stay inside of the text. Images of ignored types (that are not converted) disappear, and the text around the images stays as it is.", "quantifier": "every text with any number of images, with any options in any order and any nested markup, every configuration of prefixes, ignored types and ignored options, every state of the tokenizer", "why_tests_cant": "options are told apart by their beginnings and ends only and may occur in any number and order; captions contain arbitrary nested markup", "anchors": ["src/parser/image.go: parseImages, escapeImages", "src/parser/pattern.go: internalLinkStartRegex", "src/parser/utils.go: FindCorrespondingCloseToken"]}
{"id": "C58", "title": "Galleries and image maps become their images", "statement": "Every line of a gallery becomes one image with a frame, its tags and empty lines disappear. An image map becomes its image and nothing else of it stays. All lines outside of galleries and image maps stay as they are.", "quantifier": "every sequence of lines with any number of galleries and image maps, closed or not, every configuration, every state of the tokenizer", "why_tests_cant": "the state of the loop depends on all lines before; tags may be written in any case, with attributes, with text before or behind them, or be missing", "anchors": ["src/parser/image.go: parseGalleries, parseImageMaps, escapeImages", "src/parser/pattern.go: galleryStartRegex, imagemapStartRegex, hasNonInlineParameterRegex", "src/util/string.go: ReplaceAllIgnoreCase"]}
{"id": "C59", "title": "The built-in EPUB generator writes all articles, in order, with their titles and the metadata", "statement": "A book written by the internal driver has one section per article, in the order of the articles, with the HTML of the article as content and the title of the article as title. It has the title, author, language, license, date, cover image, style sheet and fonts of the configuration; what is not configured is left out. If an article cannot be read or the EPUB library fails, there is an error and no book. Every command writes the output of the configured type.", "quantifier": "all lists of articles, file contents, metadata, configurations, output types and failures of the EPUB library", "why_tests_cant": "the title is found by a pattern within arbitrary HTML; failures of the library may happen at any call", "anchors": ["src/generator/epub.go: GenerateEpub, GenerateEpubWithGoLibrary", "src/main.go: generateStandaloneEbook, generateBookFromArticles"]}
{"id": "C60", "title": "A document in wikitext becomes the HTML that its markup says", "statement": "The HTML for a document of headings, paragraphs, lists (unordered, ordered and description lists, with lists below their items) tables (with captions, headings and data cells), pictures (with sizes, captions and links in the captions) and lists of footnotes, with bold and italic text, links to articles, links to web pages, formulas, small pictures and footnotes in the text, contains every piece of the text exactly once, in the same order and in the elements for its markup (h1-h6, b, i, a, ul, ol, li, table, tr, th, td, img, breaks between paragraphs), and nothing else; every formula is replaced by its picture, and there is no HTML if a picture is missing; every footnote is replaced by its number, and its text stands with this number in the next list of footnotes of its group. Neither the cleanup nor the parser nor the generator loses, changes or invents anything, the parser does not fail, and there is no other possible result.", "quantifier": "all documents (any number of blocks, lines, items, rows, cells and parts of lines, any number of blank lines before, between and behind the blocks, lists of any depth, any text without markup characters), configurations whose file prefixes are words, template services, titles and style sheets", "why_tests_cant": "the text passes through eight cleanup steps, a dozen passes that replace markup by keys, and the recursive expansion of the keys; each of them can damage what another one made for some combination of markup", "anchors": ["src/parser/tokenizer.go: Tokenize, tokenizeContent", "src/parser/cleaner.go: clean", "src/generator/html.go: Generate", "src/generator/expand.go: expandString", "src/parser/reference.go: parseReferences"]}
{"id": "C61", "title": "Railway tables lose their frame and nothing else", "statement": "In a text with railway tables (which begin with the template BS-table and end like a table) the cleanup removes exactly the beginnings and the ends of these tables, also of nested ones, and keeps everything else unchanged and in order. A railway table that is not closed is reported as an error. Texts without railway tables stay unchanged.", "quantifier": "all texts, all depths of nesting and numbers of tables", "why_tests_cant": "the removal is recursive and changes the text under the indices of the callers; the result depends on the nesting of the tables", "anchors": ["src/parser/hacks.go: hackGermanRailwayTemplates", "src/parser/cleaner.go: clean"]}
{"id": "C62", "title": "Every element of an article is shown in the HTML with all its data", "statement": "The generated HTML of an article is determined by its elements: headings with their depth, links with their address, images with the reference to the stored file, their size and their caption, lists with the kind of the list and of each item and with all sublists, tables with every cell, its attributes and the caption, formulas with the rendered file and its size, footnotes with their number; each with the HTML of its own text in its place, in the page with the title and the style sheet.", "quantifier": "all configurations, all sets of elements with all nestings, and all texts of plain text, markers and keys of elements", "why_tests_cant": "every combination of elements, nesting, attributes and missing data has its own output; tests compare single elements", "anchors": ["src/generator/html.go: Generate, expandHeadings, expandImage, expandInlineImage, expandSizeTemplate, expandTable, expandListItem, expandRefDefinition, expandMath", "src/generator/expand.go: expand"]}
{"id": "C63", "title": "The book consists of the delivered articles in the order of the project", "statement": "Whatever happened to the cache before and however the workers' requests, cache accesses and failures are interleaved: when all workers have finished, every chapter file handed over is the one of its article, in project order, and contains exactly what the generator makes of a text that the configured wiki has completely delivered for this article, of the answers that were delivered for its templates (each template is asked for when the tokenizer reaches it) and of the pictures that were delivered for its formulas. For articles that are simple documents, or become such documents when their templates are evaluated, the resulting book has one section per article with its title and the HTML of its document, with the pictures that were delivered for its formulas.", "quantifier": "all histories of the cache, all projects without duplicates, all numbers of workers, all schedules of their actions, all server answers, all failing calls, all documents", "why_tests_cant": "the result depends on the interleaving of concurrent workers that share the cache, on the history of the cache and on failures at any call", "anchors": ["src/main.go: generateBookFromArticles, processArticle", "src/wikipedia/wikipedia.go: DownloadArticle, DownloadImages", "src/cache/cache.go: CacheToFile, GetFile", "src/generator/html.go: Generate, write", "src/generator/epub.go: GenerateEpubWithGoLibrary", "src/parser/template.go: replaceTemplateByPlaceholders", "src/generator/html.go: expandMath"]}
{"id": "C64", "title": "Cached data expires", "statement": "Data that is served from the cache has been written completely, for exactly this file, and not longer ago than the maximum age of the cache (counted in whole minutes).", "quantifier": "all configurations, all histories of lookups, writes, failing system calls, crashes, restarts and waiting times", "why_tests_cant": "the modification time of a file is set by writes, by moving it, and by lookups; its age depends on the complete history of the cache", "anchors": ["src/cache/cache.go: GetFile, isOutdated, CacheToFile"]}
{"id": "C65", "title": "Requests ask for exactly what is wanted", "statement": "Every request for an article, a template, a formula or an image asks the right server for exactly this title, wikitext, formula or file, whatever characters it contains (the server decodes the form fields to the same text). The only files written are the ones named after it, and their content is a complete answer to such a request; an image is asked for under the name in the title of its article, at the address built from that name, and the SVG and PNG picture of a formula come from the addresses of the SVG and PNG picture with the name that was returned for this formula.", "quantifier": "all titles, templates, formulas and image names, all configurations, all answers of the servers, all failures of the network and the file system, all states of the cache", "why_tests_cant": "titles and templates contain arbitrary bytes, and the answers and failures are chosen by the environment", "anchors": ["src/wikipedia/wikipedia.go: DownloadArticle, downloadImage, EvaluateTemplate, getMathResource, RenderMath", "src/http/http.go: DownloadAndCache, doRequest"]}
{"id": "C66", "title": "Images are converted and processed as configured, and nothing else is changed", "statement": "Post-processing of an image changes no file but the one that is shown in the book. That file is the downloaded image, converted if its format requires it, and processed by the configured command if it is new; images that are found in the cache are not processed again.", "quantifier": "all images, all configurations, all states of the cache, all failures and all data written by external programs", "why_tests_cant": "what is done depends on the history of the cache (which files exist, what has failed before), which is unbounded", "anchors": ["src/wikipedia/wikipedia.go: postProcessImage, downloadImageUsingAllSources, downloadImage", "src/image/image.go: ResizeAndCompressImage, ConvertToPng"]}
{"id": "C67", "title": "The pictures of every page of the book are there", "statement": "When all workers have finished, every image element in the HTML of every chapter has a source that is the URL of a file which is in the cache at this moment: the picture (or its conversion) of every image of the article, and the picture of every formula, whatever the other workers did with the cache in the meantime.", "quantifier": "all histories of the cache (earlier runs, crashes, failures, other settings), all interleavings of the workers, all failing calls, all answers of the servers; for the image elements of the HTML all documents of C60", "why_tests_cant": "the workers share the cache and run in any order, and an outdated picture is removed and downloaded again by one worker while the page of another one refers to it", "anchors": ["src/main.go: generateBookFromArticles", "src/wikipedia/wikipedia.go: DownloadImages, postProcessImage, RenderMath", "src/generator/html.go: Generate, filenameToImagePath, expandImage, expandMath", "src/cache/cache.go: GetFile, CacheToFile"]}
{"id": "C68", "title": "The statistics of an article say what is in its wikitext", "statement": "For an article that consists of headings, paragraphs, lists, tables, pictures, bold and italic text, links, formulas and footnotes, the statistics give the numbers of characters and words of its text (without markup), of its links, images, formulas, footnote marks and texts of footnotes, the time for reading these words, and for every article how often it is linked, where links to sections count for the article. The statistics can always be made.", "quantifier": "all documents (of any length and nesting), all configurations of prefixes, all answers of the template service, all classifications of characters as letters, all languages", "why_tests_cant": "texts of any length and nesting, through all passes of the parser: words and things must neither be lost nor counted twice by any combination of markup", "anchors": ["src/generator/stats.go: StatsGenerator.Generate, all expand functions", "src/parser/tokenizer.go: Tokenize", "src/parser/list.go, table.go, heading.go, link.go, image.go"]}
{"id": "C69", "title": "Files of statistics are JSON that says the statistics", "statement": "The file with the statistics of an article, and the file with the combined statistics, is one JSON object; it has, each exactly once, the name of the article, every number under its name, and for every linked article (of the combination also: for every one that is not in the book, and for the ten most frequent ones of these) exactly one member with its name and its number. Whoever reads the file finds these values and no others, whatever characters are in the names. The bytes of the file of an article depend only on these values, not on the order in which the links are enumerated.", "quantifier": "all statistics: all names (all Unicode characters, also quotes, backslashes, control characters), all numbers, any number of links", "why_tests_cant": "all names with all characters and any number of entries; tests look at a few literal outputs", "anchors": ["src/generator/stats.go: articleStats, StatsGenerator.Generate, generateJsonStatsContent, GenerateCombinedStats"]}
{"id": "C70", "title": "The statistics of a project are the sums over the delivered articles", "statement": "For the output types stats-json and stats-txt: whatever is in the cache and however the workers are scheduled, the file of every article is JSON that says what is in the text that the host has delivered for this article (with the answers to its templates); and the result says the sums of the numbers over all articles of the project, the links with their numbers, and as uncovered exactly the links to articles that are not in the project.", "quantifier": "all projects, all schedules of the workers, all contents of the cache left by earlier runs, all documents and answers of the template service, all languages", "why_tests_cant": "it needs all schedules and cache histories together with all texts", "anchors": ["src/main.go: generateBookFromArticles, processArticle, shouldRecreateHtml", "src/generator/stats.go: StatsGenerator.Generate, GenerateCombinedStats, generateTxtStatsContent", "src/cache/cache.go: CacheToFile"]}
{"id": "C71", "title": "The book of a file contains the text of the file", "statement": "The command for a single file with wikitext makes a book whose title is the name of the file up to its first dot and which has one chapter: the HTML of the content of this file, with the answers of the hosts to its templates and the pictures that were delivered for its formulas; every picture in it is in the cache. It does not matter what earlier runs have left in the cache.", "quantifier": "all names of files, all contents (for the HTML: all texts that become documents), all contents of the cache left by earlier runs, all behaviours of the network, all points of time", "why_tests_cant": "it needs all texts together with all histories of the cache and of the network", "anchors": ["src/main.go: generateStandaloneEbook, shouldRecreateHtml", "src/generator/html.go: Generate, write", "src/generator/epub.go: GenerateEpub"]}
{"id": "C72", "title": "Markup is recognised exactly as the patterns of the program say", "statement": "The program finds markup with regular expressions: tokens, names of templates, beginnings of images, galleries, image maps and tables, numbers of columns and rows and alignments of cells, places for footnotes, formulas, titles of sections, and texts that are removed in any case of letters. What it finds is the leftmost match, of the matches there the one with the first alternatives and with as many (or, where the expression says so, as few) repetitions as possible, and then the next match behind it; the groups are the texts that their parts match.", "quantifier": "all texts (case folding is that of ASCII)", "why_tests_cant": "a recogniser and an expression that agree on all examples can differ on another text: where a match ends, which of two possible matches is taken, how white space is given back", "anchors": ["src/parser/pattern.go", "src/util/string.go: ReplaceAllIgnoreCase", "src/generator/epub.go: GenerateEpubWithGoLibrary", "src/generator/html.go: tokenRegex"]}
{"id": "C73", "title": "The cleanup removes what the rules say and keeps everything else", "statement": "Before an article is parsed, comments, unwanted links (also within the captions of pictures), ignored templates, the word that switches off the table of contents, empty entries of lists, empty sections and the frames of railway tables are removed, in this order, and trailing templates are moved to the end. Exactly these parts are removed, every other character is kept in its place (apart from white space around lines), and cleaning up a second time changes nothing. Articles whose text needs this cleanup become the same HTML, statistics and book as articles that are written without these parts.", "quantifier": "all texts with properly written comments, brackets, templates and railway tables, nested to any depth, in any combination, and all configurations", "why_tests_cant": "each step works on what the earlier steps have left, and a removed part can join two others to new markup; tests show single steps on a few texts", "anchors": ["src/parser/cleaner.go: clean", "src/parser/hacks.go: hackGermanRailwayTemplates"]}
{"id": "C74", "title": "The cache is complete between any two system calls of the workers", "statement": "While any number of workers look up, store and read files, every system call of one of them can take place between any two of another one; only one worker at a time is within the functions that look up and store cached files. At every such moment, also in the middle of storing a file, and after the process has died there, each file that can be read in the cache under the name of an article, template or formula has exactly the data that a server has delivered for such a request, and each file of generated HTML or statistics is the whole output of a job, never a part of it. What a worker reads, without any lock, therefore belongs to its request. No worker waits forever for the lock: until all are ready there is always one that can go on.", "quantifier": "all jobs, numbers of workers, interleavings of single system calls, failures of system calls, answers of servers, cache strategies and limits, and crash points", "why_tests_cant": "the reads are not protected by the lock; whether they can see a half-written or foreign file depends on the interleaving of single system calls, which tests do not control", "anchors": ["src/cache/cache.go: cacheWriteMutex, CacheToFile, GetFile", "src/http/http.go: DownloadAndCache", "src/wikipedia/wikipedia.go"]}
{"id": "C75", "title": "Memory that is shared or changed in place does not mix up the text", "statement": "The search for bold and italic text tries interpretations and goes back, on stacks that use the same memory, and the markers are inserted into the text in place. However large the arrays are that the runtime reserves when a slice grows, a stack that the search goes back to is unchanged, no read or slice goes behind the end of the text, and the result is the text with balanced markers that the same search gives on separate values. Likewise, the lines of image maps are deleted within the array that the loop runs over, and still each line is treated exactly once, none is skipped or read twice. The lines of a list or a table, also with nested tables, are replaced by a single line while the loop runs over the lines, and none is skipped or treated twice either.", "quantifier": "all texts, configurations, capacities of newly reserved arrays and contents of their unused parts", "why_tests_cant": "whether an append overwrites the elements of another slice depends on the capacity that is left in an array, thus on the depth at which the search goes back and on the runtime", "anchors": ["src/parser/formatting.go: parseBoldAndItalic, tokenizeBoldAndItalic", "src/parser/image.go: parseImageMaps", "src/parser/list.go: parseLists", "src/parser/table.go: parseTables, tokenizeTables"]}
{"id": "C76", "title": "What several workers need is requested from the servers once", "statement": "If several articles of a project need the same article text, template, formula or picture, it is downloaded once, and all workers take it from the cache, as long as nothing is evicted or expired, no system call fails and the process does not die. In particular, a worker that finds the data in the cache sends no request.", "quantifier": "all jobs, numbers of workers and interleavings of single system calls", "why_tests_cant": "looking up, downloading and storing are separate steps, whether another worker comes in between depends on the interleaving", "anchors": ["src/http/http.go: DownloadAndCache", "src/cache/cache.go: GetFile, CacheToFile", "src/main.go: generateBookFromArticles"]}
{"id": "C77", "title": "The size of the cache while several workers use it", "statement": "If the cache is below its maximum size when wiki2book starts, it is below it at every moment while several workers download articles, images, templates and formulas and write results, also in the middle of a write and after the process died.", "quantifier": "all numbers of workers and jobs, all orders of their system calls, all answers of the servers, all failures of system calls and all crash points", "why_tests_cant": "The workers can be interleaved in unboundedly many ways and a limit can be exceeded for a short time only.", "anchors": ["src/cache/cache.go:CacheToFile", "src/cache/cache.go:deleteFilesFromCacheIfNeeded", "src/wikipedia/wikipedia.go:postProcessImage", "src/wikipedia/wikipedia.go:RenderMath"]}

{
 "claims": [
  {
   "property": "C01",
   "status": "proved",
   "theorems": [
    "C01_sanitized_names_distinct"
   ],
   "note": "all pairs of names"
  },
  {
   "property": "C02",
   "status": "proved",
   "theorems": [
    "C02_sanitized_name_accepted",
    "C02_cache_path_accepted"
   ],
   "note": "all names"
  },
  {
   "property": "C03",
   "status": "proved",
   "theorems": [
    "C03_guard_rejects_reserved",
    "C03_guard_accepts_only_escaped_refuted"
   ],
   "note": "the stated property holds; the stronger reading is refuted by the component %3%25C"
  },
  {
   "property": "C04",
   "status": "partial",
   "theorems": [
    "C04_cache_path_direct_child",
    "C04_cache_paths_distinct",
    "C04_all_names_refuted"
   ],
   "note": "holds for all names except the empty one, . and ..; false for those"
  },
  {
   "property": "C05",
   "status": "partial",
   "theorems": [
    "C05_equals_in_any_order_refuted",
    "C05_equals_in_any_order_partial"
   ],
   "note": "false for lists with repeated elements; proved if the first list has none"
  },
  {
   "property": "C06",
   "status": "proved",
   "theorems": [
    "C06_remove_duplicates"
   ],
   "note": ""
  },
  {
   "property": "C07",
   "status": "proved",
   "theorems": [
    "C07_found",
    "C07_not_found",
    "C07_position",
    "C07_ignore_case"
   ],
   "note": "Exact characterisation by a declarative reading of the text as nested tokens."
  },
  {
   "property": "C08",
   "status": "proved",
   "theorems": [
    "C08_comments",
    "C08_no_comment"
   ],
   "note": ""
  },
  {
   "property": "C09",
   "status": "partial",
   "theorems": [
    "C09_unwanted_links_partial",
    "C09_unique",
    "C09_no_link",
    "C09_closed",
    "C09_colon_in_text_refuted",
    "C09_unclosed_refuted"
   ],
   "note": "Proved for every text with properly nested brackets; a colon anywhere in the link counts as prefix, so links with a colon in the link text are lost, and unclosed links crash (refuted)."
  },
  {
   "property": "C10",
   "status": "partial",
   "theorems": [
    "C10_templates_partial",
    "C10_unique",
    "C10_total",
    "C10_trailing_arguments_refuted",
    "C10_trailing_prefix_refuted"
   ],
   "note": "Proved for every text whose templates have plain names; trailing templates lose their arguments and templates that only begin like a trailing one are dropped (refuted)."
  },
  {
   "property": "C11",
   "status": "proved",
   "theorems": [
    "C11_lines",
    "C11_no_empty_entry",
    "C11_idempotent"
   ],
   "note": ""
  },
  {
   "property": "C12",
   "status": "partial",
   "theorems": [
    "C12_sections",
    "C12_content",
    "C12_text_kept",
    "C12_bold_text_refuted"
   ],
   "note": "Exact effect proved for all texts; the claim fails for text lines that begin and end with bold text (refuted)."
  },
  {
   "property": "C13",
   "status": "partial",
   "theorems": [
    "C13_any_order_partial",
    "C13_replacing",
    "C13_placeholder_text_refuted"
   ],
   "note": "For every text with closed templates and every (deterministic) answer the loop ends for all map iteration orders with the recursively evaluated text. Missing: articles or answers that contain the text of a placeholder; for those the claim is false (endless loop), see the refutation."
  },
  {
   "property": "C14",
   "status": "partial",
   "theorems": [
    "C14_requests",
    "C14_closed",
    "C14_unclosed_partial",
    "C14_total",
    "C14_unclosed_at_end_refuted",
    "C14_reading"
   ],
   "note": "Requests never contain a nested template, nested templates are asked first, and nothing crashes, for all texts and services. Unclosed templates are an error except for opening braces that are the last two characters, see the refutation."
  },
  {
   "property": "C15",
   "status": "proved",
   "theorems": [
    "C15_nested",
    "C15_separated"
   ],
   "note": "For every text the pass ends with the input plus balanced, properly nested markers; separated quotes are formatted as expected, with single apostrophes left alone."
  },
  {
   "property": "C16",
   "status": "proved",
   "theorems": [
    "C16_replaced",
    "C16_text"
   ],
   "note": "For every text."
  },
  {
   "property": "C17",
   "status": "proved",
   "theorems": [
    "C17_keys",
    "C17_unique",
    "C17_state",
    "C17_kept"
   ],
   "note": "For all texts, configurations and fuel: keys created by any sequence of getToken calls differ; the token map after any successful tokenization has no duplicate key; later parsing keeps every token."
  },
  {
   "property": "C18",
   "status": "partial",
   "theorems": [
    "C18_resolvable_partial",
    "C18_calm",
    "C18_calm_article",
    "C18_document",
    "C18_refuted"
   ],
   "note": "Refuted in general: an image closed by a single bracket swallows the first character of a key directly behind it. Proved for all other runs: the run with the check for exactly this (tokenizeContent_check true) agrees with the real run and leaves only keys that can be resolved. For calm texts (C19: no tables, images, references and so on) without a dollar sign the check never fires, so for them the property holds for every run, and such a text becomes exactly one article with only resolvable keys. For the documents of C60 (with tables, images, footnotes) generating the book fails only if the picture of a formula cannot be had. Missing: a condition on the text alone for all texts with images."
  },
  {
   "property": "C19",
   "status": "partial",
   "theorems": [
    "C19_calm_partial",
    "C19_origin_partial",
    "C19_article_partial",
    "C19_calm_article",
    "C19_document",
    "C19_tokenizer_refuted",
    "C19_cleanup_refuted"
   ],
   "note": "False in general: fourteen short texts crash the tokenizer and two the cleanup. Proved: calm texts (no tables, images, references, galleries, image maps, nowiki; every double bracket starts a link target) never crash and give no error, for every configuration with plain file prefixes, every fuel and tokenizer state, and always end with exactly one article; the same for the documents of C60, which have tables, images and references; crashes of the whole parser come only from the cleanups or from a text that is not calm."
  },
  {
   "property": "C20",
   "status": "partial",
   "theorems": [
    "C20_headings_partial",
    "C20_refuted",
    "C20_refuted_line"
   ],
   "note": "Refuted in general: the equal signs of the marker are removed from the title as well, and a line of equal signs becomes an empty heading. Proved for titles without the marker; lines that do not begin and end with an equal sign stay; the number of lines stays."
  },
  {
   "property": "C21",
   "status": "partial",
   "theorems": [
    "C21_C22_written_partial",
    "C21_same_number",
    "C21_consecutive",
    "C21_refuted"
   ],
   "note": "Proved for every article built from footnotes (with and without name, group, text), short and long lists, in any number and order, with space between a list and the next footnote and between the footnotes of a list: the marks and lists written are those of the specification, whose numbers are consecutive in order of first appearance and equal exactly for equal names. Refuted in general: a footnote directly behind a list is numbered anew, so that two names share number 0 (C21_refuted)."
  },
  {
   "property": "C22",
   "status": "partial",
   "theorems": [
    "C21_C22_written_partial",
    "C22_listed_once",
    "C22_refuted_adjacent",
    "C22_refuted_no_list",
    "C22_refuted_twice"
   ],
   "note": "Proved for the same articles: a list shows exactly the texts given since the last list of its group, each number once, sorted by number. Refuted in general: adjacent footnotes in a list crash, a footnote without a later list is lost, and of two texts for one name the first is lost."
  },
  {
   "property": "C23",
   "status": "proved",
   "theorems": [
    "C23_lists",
    "C23_terminates"
   ],
   "note": "Stated for the list pass with the tokenizer of the model as the parser of item texts. An item line is list characters followed by text that begins with no list character; the kinds of the enclosing lists (path) give the depth. Termination: the list pass never runs out of fuel unless the parser of the item texts does."
  },
  {
   "property": "C24",
   "status": "partial",
   "theorems": [
    "C24_tables_partial",
    "C24_refuted",
    "C24_refuted_exclamation",
    "C24_refuted_heading",
    "C24_refuted_alignment",
    "C24_refuted_empty",
    "C24_refuted_bars"
   ],
   "note": "Proved for well-formed tables of any size with captions, attributes (spans and alignment), several cells per line, cells of several lines and nested tables of any depth. The full property fails, refuted by concrete tables: a cell that begins with a minus sign, plus sign or closing brace directly behind its bar, a data cell with a leading exclamation mark or with two exclamation marks is lost or split; a heading cell of several lines is not marked as heading; an alignment without semicolon, an empty first cell and the text behind a second bar are lost; a heading cell behind two bars becomes a data cell."
  },
  {
   "property": "C25",
   "status": "proved",
   "theorems": [
    "C25_links"
   ],
   "note": "For all texts that consist of links without nested brackets and of other text, all configurations whose file prefixes have no closing bracket; recursive parsing of link texts included."
  },
  {
   "property": "C26",
   "status": "partial",
   "theorems": [
    "C26_brackets_partial",
    "C26_refuted",
    "C26_refuted_nested"
   ],
   "note": "Refuted for unclosed and nested brackets (a closing bracket is added). Proved for all texts with closed brackets that are not nested; also says what becomes of external links."
  },
  {
   "property": "C27",
   "status": "proved",
   "theorems": [
    "C27_paragraphs",
    "C27_determined",
    "C27_kept",
    "C27_again"
   ],
   "note": "For every text."
  },
  {
   "property": "C28",
   "status": "proved",
   "theorems": [
    "C28_verbatim",
    "C28_not_interpreted"
   ],
   "note": "Areas without nested nowiki tags. The content is stored verbatim and stays until the end of parsing; with other contents a round of all passes gives the same text and the same other tokens."
  },
  {
   "property": "C29",
   "status": "partial",
   "theorems": [
    "C29_expanded_partial",
    "C29_unknown",
    "C29_total",
    "C29_refuted",
    "C29_refuted_dollars"
   ],
   "note": "Exact result for all texts of plain text, markers and keys, error for unknown keys, success for all maps in which tokens use older tokens. Missing and refuted: plain text like the name of a marker between two keys, and texts with dollar signs."
  },
  {
   "property": "C30",
   "status": "partial",
   "theorems": [
    "C30_nested_partial",
    "C30_tokens_shaped",
    "C30_article_partial"
   ],
   "note": "The whole file is header, well-nested content and footer, for all token maps with texts without angle brackets and balanced markers. The levels of headings and the kinds of list items are as required in every parsed article (C30_tokens_shaped). Missing: texts with dollar signs or like the name of a marker (C29_refuted shows an unclosed tag)."
  },
  {
   "property": "C31",
   "status": "partial",
   "theorems": [
    "C31_in_order_partial",
    "C31_all_partial",
    "C31_refuted"
   ],
   "note": "All pieces of text of the reachable tokens are in the HTML in the order of the book. Refuted for StringTokens, whose text is dropped."
  },
  {
   "property": "C32",
   "status": "partial",
   "theorems": [
    "C32_image_partial",
    "C32_article_partial",
    "C32_distinct_partial",
    "C32_refuted_colon",
    "C32_refuted_same_path",
    "C32_refuted_eviction"
   ],
   "note": "For all image names without colon, conversion settings, hosts, servers and failures: after a successful download the decoded path in the HTML is the path of an existing file, the image or its conversion; for whole articles without eviction. The claim is false for names with a colon, for an image named like the converted other one, and with eviction."
  },
  {
   "property": "C33",
   "status": "partial",
   "theorems": [
    "C33_counted",
    "C33_partial",
    "C33_total",
    "C33_characters",
    "C33_refuted",
    "C33_refuted_string"
   ],
   "note": "The statistics count every occurrence of links, images, formulas, footnotes, characters and words that is reached without entering lists inside list items or StringTokens, and nothing else; for articles without those this is everything. False in general: everything in sub-lists is missing (C33_refuted). Texts are layouts as in C29. unicode.IsLetter/IsNumber is a parameter, UTF-8 decoding is modelled."
  },
  {
   "property": "C34",
   "status": "proved",
   "theorems": [
    "C34_sums",
    "C34_total",
    "C34_top",
    "C34_text",
    "C34_refuted_names"
   ],
   "note": "For all lists of statistics, every order of map iteration and every unstable sort. JSON coding is not modelled. Names are compared as written, so a link to berlin is reported although Berlin is in the book (C34_refuted_names)."
  },
  {
   "property": "C35",
   "status": "proved",
   "theorems": [
    "C35_cache_write_atomic",
    "C35_cache_write_success",
    "C35_cache_contents_complete"
   ],
   "note": "Every system call may fail and every state during a write is a crash point; histories include crashes and restarts."
  },
  {
   "property": "C36",
   "status": "proved",
   "theorems": [
    "C36_cache_size_limit",
    "C36_write_restores_limit_refuted"
   ],
   "note": "Proved as stated (cache below the limit initially). The stronger claim that a write re-establishes the limit in a cache that is already too large is refuted: the size of an evicted target is subtracted twice."
  },
  {
   "property": "C37",
   "status": "partial",
   "theorems": [
    "C37_eviction_order",
    "C37_least_recently_used",
    "C37_evicted_only_if_needed_refuted",
    "C37_evicted_only_if_needed_partial",
    "C37_no_needless_eviction_partial"
   ],
   "note": "Order proved, for LRU also in terms of the uses of the files in every history. That files are only evicted while the limit is exceeded is refuted (the new file is counted twice); proved with the double count."
  },
  {
   "property": "C38",
   "status": "partial",
   "theorems": [
    "C38_file_that_fits_largest_refuted",
    "C38_file_that_fits_lru_refuted",
    "C38_file_that_fits_partial",
    "C38_no_limit_without_strategy"
   ],
   "note": "Refuted for files of at least half of the maximum size (crash with the largest-file strategy, error with LRU); proved for smaller files and without strategy."
  },
  {
   "property": "C39",
   "status": "proved",
   "theorems": [
    "C39_lookup",
    "C39_outdated_never_served",
    "C39_lookup_other_files_untouched"
   ],
   "note": "Age is rounded down to minutes by the code, so a file is served until it is CacheMaxAge+1 minutes old; the theorem states this bound."
  },
  {
   "property": "C40",
   "status": "partial",
   "theorems": [
    "C40_downloaded_file_readable_refuted",
    "C40_downloaded_file_readable_partial"
   ],
   "note": "The full claim is refuted: with an eviction strategy another worker's write can evict the file before it is read. Proved: without eviction strategy the file stays, for every history of writes and of lookups of other files."
  },
  {
   "property": "C41",
   "status": "partial",
   "theorems": [
    "C41_throttled_get_retried",
    "C41_throttled_post_refuted",
    "C41_post_partial"
   ],
   "note": "Proved in full for GET requests. Refuted for POST requests: the request data is already consumed when the request is repeated."
  },
  {
   "property": "C42",
   "status": "proved",
   "theorems": [
    "C42_cached_file_not_requested",
    "C42_without_request",
    "C42_downloaded_content",
    "C42_failure_not_cached",
    "C42_only_delivered_bodies"
   ],
   "note": "Also in every intermediate state and with failing system calls. An outdated file is removed before the request."
  },
  {
   "property": "C43",
   "status": "partial",
   "theorems": [
    "C43_sources_in_order",
    "C43_requests_of_one_source",
    "C43_error_iff_not_delivered_refuted",
    "C43_no_host_refuted"
   ],
   "note": "Order and stopping at the first success are proved. 'Error exactly when no host delivers the image' is refuted twice: the cached article of the first host is reused for the second one, and an empty host list is a success."
  },
  {
   "property": "C44",
   "status": "partial",
   "theorems": [
    "C44_every_schedule_ends",
    "C44_no_deadlock",
    "C44_project_order_partial",
    "C44_duplicates_refuted"
   ],
   "note": "Termination and absence of deadlocks for all schedules; chapter order for lists without duplicates. False for duplicates: a later occurrence always gets an empty chapter path."
  },
  {
   "property": "C45",
   "status": "partial",
   "theorems": [
    "C45_existing_html_refuted",
    "C45_cached_html_regenerated_refuted",
    "C45_chapter_partial",
    "C45_pool_refuted"
   ],
   "note": "False: existing HTML leads to an empty path, and the file is looked for in the working directory instead of the cache. Proved for standalone articles and for the cases without reuse."
  },
  {
   "property": "C46",
   "status": "partial",
   "theorems": [
    "C46_project_partial",
    "C46_article_partial",
    "C46_explicit_default_refuted"
   ],
   "note": "Precedence proved for values that differ from the default; refuted for explicitly given default values (and reordered default lists), which are ignored."
  },
  {
   "property": "C47",
   "status": "partial",
   "theorems": [
    "C47_validation",
    "C47_effective_valid",
    "C47_combination_refuted"
   ],
   "note": "Validation is characterised exactly and every effective configuration is valid; the claim that valid combinations are accepted is refuted since every layer is validated alone."
  },
  {
   "property": "C48",
   "status": "partial",
   "theorems": [
    "C48_config_file_partial",
    "C48_fonts_refuted",
    "C48_executable_refuted",
    "C48_command_line_refuted",
    "C48_absolute"
   ],
   "note": "Path options of the configuration file and relative font files proved; refuted for absolute fonts, executables and command line paths in project mode."
  },
  {
   "property": "C49",
   "status": "partial",
   "theorems": [
    "C49_relative_width_partial",
    "C49_no_viewbox",
    "C49_absolute_refuted",
    "C49_relative_height_refuted",
    "C49_missing_width_refuted",
    "C49_comma_space_refuted"
   ],
   "note": "Proved for a relative width; refuted if both sizes are absolute (overwritten), if only the height is relative (unchanged), for a missing width and for view boxes separated by comma and space."
  },
  {
   "property": "C50",
   "status": "partial",
   "theorems": [
    "C50_words_partial",
    "C50_space_refuted"
   ],
   "note": "Proved for paths without spaces (and input paths without opening brace); false for paths with spaces."
  },
  {
   "property": "C51",
   "status": "partial",
   "theorems": [
    "C51_epub_single",
    "C51_epub_project_partial",
    "C51_project_default_refuted",
    "C51_stats_refuted",
    "C51_stats_partial"
   ],
   "note": "Proved for EPUB (single articles) and for projects with an output file. False for projects without an output file and for statistics without the expected file ending."
  },
  {
   "property": "C52",
   "status": "proved",
   "theorems": [
    "C52_pandoc"
   ],
   "note": "All settings, metadata and chapters."
  },
  {
   "property": "C53",
   "status": "partial",
   "theorems": [
    "C53_parser_ends",
    "C53_cleanup_ends",
    "C53_one_outcome",
    "C53_article_partial",
    "C53_no_templates",
    "C53_placeholder_refuted"
   ],
   "note": "Proved for every text for the cleanup and the parser behind the template evaluation (with exactly one outcome). The only loop that can run forever is the replacement of template placeholders: refuted for a text that contains the beginning of a placeholder; it ends for all other texts and answers by C13."
  },
  {
   "property": "C54",
   "status": "proved",
   "theorems": [
    "C54_text",
    "C54_tokens",
    "C54_article",
    "C54_other_markup_stays"
   ],
   "note": "The kinds of markup are listed in MarkupSpec.v. C54_tokens states the property for all texts of tokens up to white space that is cut off at the ends. C54_other_markup_stays shows the two exceptions."
  },
  {
   "property": "C55",
   "status": "partial",
   "theorems": [
    "C55_reading",
    "C55_formulas",
    "C55_article_partial",
    "C55_derivative_refuted",
    "C55_interval_refuted"
   ],
   "note": "The pass for formulas is proved for every text; the whole parser for texts without markup that is read before the formulas. The full claim is refuted: two quotes (a derivative) become italic markers inside the formula, and half-open intervals get closing brackets."
  },
  {
   "property": "C56",
   "status": "partial",
   "theorems": [
    "C56_articles",
    "C56_one_wiki",
    "C56_templates",
    "C56_one_wiki_templates",
    "C56_formulas",
    "C56_same_executions",
    "C56_other_wiki_refuted"
   ],
   "note": "Proved for all interleavings and crashes of any number of workers: delivered data, right title, a host where some job looked for this title. That it is the own host is false for two wikis with one cache (refuted); proved if all jobs that look for the title use one host. Templates and formulas up to equal hashes."
  },
  {
   "property": "C57",
   "status": "partial",
   "theorems": [
    "C57_images",
    "C57_parts",
    "C57_wanted",
    "C57_refuted_frame",
    "C57_refuted_ignored",
    "C57_refuted_size",
    "C57_refuted_name",
    "C57_refuted_prefix"
   ],
   "note": "Proved for every text with images whose brackets are balanced: file, size, caption, block or inline, unwanted types. What counts as an option is specified as the code reads it; the refuted theorems show captions that are lost because they look like options, and a file whose name is taken for a size."
  },
  {
   "property": "C58",
   "status": "partial",
   "theorems": [
    "C58_galleries",
    "C58_maps",
    "C58_no_gallery",
    "C58_no_map",
    "C58_refuted_gallery",
    "C58_refuted_map",
    "C58_refuted_unwanted"
   ],
   "note": "The full line by line behaviour is proved for every text. The claim itself is refuted for closing tags that are not at the beginning of a line (galleries) or not the whole line (image maps)."
  },
  {
   "property": "C59",
   "status": "partial",
   "theorems": [
    "C59_book_partial",
    "C59_articles_partial",
    "C59_complete",
    "C59_output_type_partial",
    "C59_refuted_standalone",
    "C59_refuted_metadata",
    "C59_refuted_cover",
    "C59_refuted_reused",
    "C59_refuted_heading"
   ],
   "note": "Sections, titles, metadata, cover, style sheet and fonts for every behaviour of the EPUB library; every command writes output of the configured type. False in general: license and date are ignored, no book without a cover image or with reused HTML, an article with a heading of the first level gets a wrong section title, statistics of a standalone file always fail."
  },
  {
   "property": "C60",
   "status": "partial",
   "theorems": [
    "C60_document_partial",
    "C60_cleanup_partial",
    "C60_templates_partial",
    "C60_link_paragraph_refuted",
    "C60_bold_paragraph_refuted",
    "C60_heading_equals_refuted",
    "C60_formula_paragraph_refuted",
    "C60_formula_braces_refuted",
    "C60_heading_note_refuted"
   ],
   "note": "Proved for all documents of the grammar in DocumentSpec.v: headings, paragraphs of any number of lines, lists of any depth, tables with captions and with attributes of cells (columns, rows, alignment), pictures (in a line of their own or in the text, with sizes and captions, and links in the captions), links, formulas, footnotes (with names and groups, in text, lists and tables) and lists of footnotes. There may be any number of blank lines before, between and behind the blocks (none where two blocks stay apart without it). The text may contain nested templates, comments and unwanted parts (C60_cleanup_partial, C60_templates_partial, see C73). Missing: galleries, tables within tables, markup other than links in the captions of pictures, bold and italic text in footnotes, long lists of footnotes (with texts in the list), and the excluded forms, of which six are refuted."
  },
  {
   "property": "C61",
   "status": "partial",
   "theorems": [
    "C61_railway_partial",
    "C61_unique",
    "C61_clean_partial",
    "C61_unclosed",
    "C61_other_tables",
    "C61_argument_refuted",
    "C61_inner_table_refuted",
    "C61_end_refuted"
   ],
   "note": "All tables whose content has nothing that looks like the end of a table; the full claim is refuted for tables with such content."
  },
  {
   "property": "C62",
   "status": "proved",
   "theorems": [
    "C62_shown",
    "C62_file",
    "C62_written",
    "C62_string_refuted"
   ],
   "note": "All texts of plain text, markers and keys (see C29 for texts with dollar signs). The refutation shows that the excluded kind of token (StringToken, which the parser never makes) is not shown."
  },
  {
   "property": "C63",
   "status": "partial",
   "theorems": [
    "C63_chapters_partial",
    "C63_documents_partial",
    "C63_book_partial",
    "C63_evicted_refuted"
   ],
   "note": "Missing: articles that are twice in the project (C44), whose name begins with File: or which have been downloaded from another wiki before (C56); the content of books is stated for the documents of C60, also if they are made with templates (answers are determined by the template), without eviction from the cache and without reused HTML files (C45). C63_evicted_refuted: with eviction, a finished run may have lost a chapter, then there is no book."
  },
  {
   "property": "C64",
   "status": "partial",
   "theorems": [
    "C64_age_partial",
    "C64_last_use",
    "C64_lru_refuted"
   ],
   "note": "Proved for every strategy but LRU, for which it is refuted for every maximum age: a lookup renews the time of the file. With LRU the last use is that recent."
  },
  {
   "property": "C65",
   "status": "proved",
   "theorems": [
    "C65_article",
    "C65_template",
    "C65_formula",
    "C65_image"
   ],
   "note": ""
  },
  {
   "property": "C66",
   "status": "partial",
   "theorems": [
    "C66_nothing_else",
    "C66_processed_partial",
    "C66_cached_unchanged",
    "C66_stale_conversion_refuted",
    "C66_failed_processing_refuted"
   ],
   "note": "proved: what is done with an image and that nothing else is changed; the claim that the shown image is the converted and processed current image is refuted by two histories"
  },
  {
   "property": "C67",
   "status": "partial",
   "theorems": [
    "C67_pictures_partial",
    "C67_sources_partial",
    "C67_evicted_refuted",
    "C67_blank_refuted"
   ],
   "note": "C67_pictures_partial: for every article, the files of all image tokens and formulas exist at the end of the run, under the paths in the HTML; C67_sources_partial: every image element of the pages of documents names an existing file. Missing: eviction (refuted), names of formulas with blanks (refuted), names with a colon (C32), articles as in C63; the image elements are stated for the documents of C60."
  },
  {
   "property": "C68",
   "status": "partial",
   "theorems": [
    "C68_document",
    "C68_templates",
    "C68_whole_partial",
    "C68_lists_refuted"
   ],
   "note": "C68_document and C68_templates: the statistics of every document say what is in it without the lists below the items of lists; C68_whole_partial: everything, if there are no such lists; C68_lists_refuted: otherwise something is missing. As in C60, other kinds of markup are not covered."
  },
  {
   "property": "C69",
   "status": "partial",
   "theorems": [
    "C69_json",
    "C69_article",
    "C69_combined",
    "C69_one",
    "C69_back",
    "C69_order",
    "C69_refuted"
   ],
   "note": "Proved for all names in UTF-8; refuted for broken names, which are replaced (the file is still JSON with the right numbers)."
  },
  {
   "property": "C70",
   "status": "partial",
   "theorems": [
    "C70_files_partial",
    "C70_project_partial"
   ],
   "note": "Conditions as in C63 and C68 (no article twice, nothing evicted for the combination, documents); lists below items are not counted (C68). The JSON decoder is assumed to give what the file says, which is unique (C69)."
  },
  {
   "property": "C71",
   "status": "partial",
   "theorems": [
    "C71_title",
    "C71_chapter_partial",
    "C71_document_partial",
    "C71_book_partial",
    "C71_same_name_refuted"
   ],
   "note": "Full claim is refuted: if the working directory is that of the cache, a second file whose name is equal up to the first dot gets the HTML of the first one (C71_same_name_refuted). Proved: the title for all names; the chapter for all texts whenever the HTML is made (no HTML file in the working directory, or forced); the HTML with its pictures and the book for all texts that become documents of C60, if nothing is evicted."
  },
  {
   "property": "C72",
   "status": "proved",
   "theorems": [
    "C72_alignment",
    "C72_links",
    "C72_galleries",
    "C72_frame",
    "C72_table_start",
    "C72_spans",
    "C72_footnotes",
    "C72_formulas",
    "C72_removal",
    "C72_titles",
    "C72_tokens",
    "C72_token_lines",
    "C72_template_names",
    "C72_semantics"
   ],
   "note": "Every recogniser of the model equals the search with the regular expression of the program, for all texts of bytes. C72_semantics shows that the list of matches used in these statements is exactly what the expressions can read. Assumed: Go's engine implements this semantics; case folding is that of ASCII."
  },
  {
   "property": "C73",
   "status": "partial",
   "theorems": [
    "C73_cleanup_partial",
    "C73_unique",
    "C73_again_refuted",
    "C60_cleanup_partial",
    "C60_templates_partial"
   ],
   "note": "Proved for texts whose comments, brackets, templates and railway tables are properly written. Refuted: a second cleanup can remove more (a section with only an empty section in it)."
  },
  {
   "property": "C74",
   "status": "proved",
   "theorems": [
    "C74_one_worker",
    "C74_complete",
    "C74_articles",
    "C74_templates",
    "C74_formulas",
    "C74_no_deadlock",
    "C74_more_executions"
   ],
   "note": "For every mixture of single system calls of any number of workers, with failures and crashes. Assumed: Go's mutex excludes, and a rename within the cache is one step (as in C35). Nothing is said about the data of pictures, which external programs change in place."
  },
  {
   "property": "C75",
   "status": "proved",
   "theorems": [
    "C75_memory",
    "C75_nested",
    "C75_back",
    "C75_image_maps",
    "C75_lists",
    "C75_tables"
   ],
   "note": "For all capacities of new arrays. The slices of this code all begin at the beginning of an array. The other loops of the parser only append to slices of their own. Lists and tables: the loops with their indices, over lines that are replaced meanwhile."
  },
  {
   "property": "C76",
   "status": "partial",
   "theorems": [
    "C76_found_partial",
    "C76_stored_partial",
    "C76_twice_refuted"
   ],
   "note": "Refuted: two workers that need the same article at the same time both download it. Proved for articles and templates: a worker that finds its data in the cache sends no request, and a worker that begins when its data is in the cache never sends a request, whatever the other workers do. Pictures and formulas are missing."
  },
  {
   "property": "C77",
   "status": "partial",
   "theorems": [
    "C77_limit_partial",
    "C77_conversion_refuted"
   ],
   "note": "Proved for all executions of the workers in which no other program converts or changes images. Refuted with conversion: the program that converts an image to PNG writes into the cache directory without regard to the maximum size."
  }
 ]
}

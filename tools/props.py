#!/usr/bin/env python3
# Regenerates /verif/properties.jsonl.  P(id, title, statement, quantifier, why, anchors)
import json, os
OUT = []
def P(id, title, statement, quantifier, why, *anchors):
    OUT.append(dict(id=id, title=title, statement=statement, quantifier=quantifier,
                    why_tests_cant=why, anchors=list(anchors)))
H = "soynlp/hangle/_hangle.py"; D = "soynlp/hangle/_distance.py"; NZ = "soynlp/normalizer/_normalizer.py"
TN = "soynlp/tokenizer/_normalizer.py"; T = "soynlp/tokenizer/_tokenizer.py"; NT = "soynlp/tokenizer/_noun_tokenizer.py"
U = "soynlp/utils/utils.py"; W = "soynlp/word/_word.py"; PH = "soynlp/word/_phrase.py"; PM = "soynlp/word/_pmi.py"
V = "soynlp/vectorizer/_vectorizer.py"; WC = "soynlp/vectorizer/_word_context.py"
PD = "soynlp/postagger/_dictionary.py"; PT = "soynlp/postagger/_template.py"; PE = "soynlp/postagger/_evaluator.py"; PG = "soynlp/postagger/_tagger.py"
N2 = "soynlp/noun/_noun_ver2.py"; NP = "soynlp/noun/_noun_postprocessing.py"
CJ = "soynlp/lemmatizer/_conjugation.py"; LM = "soynlp/lemmatizer/_lemmatizer.py"
EO = "soynlp/predicator/_eomi.py"; ST = "soynlp/predicator/_stem.py"; AV = "soynlp/predicator/_adjective_vs_verb.py"; PR = "soynlp/predicator/_predicator.py"

P("C01", "compose and decompose are mutually inverse on Hangul syllables",
  "For every complete Hangul syllable c, compose(*decompose(c)) == c; and for every choseong, jungseong and jongseong taken from the three jamo inventories, compose succeeds with a complete syllable that decompose splits back into exactly those three jamo. Hence the 11,172 syllables and the jamo triples correspond one to one.",
  "every code point in the complete-syllable range, every triple of the inventories",
  "Tests try a handful of syllables; the claim is about the arithmetic for all 11,172 and all triples.",
  H + ":compose", H + ":decompose")
P("C02", "decompose is total and classifies every character",
  "decompose(c) is None exactly when c is neither a complete syllable nor a lone consonant (ㄱ-ㅎ) nor a lone vowel (ㅏ-ㅣ); a lone consonant gives (c,' ',' '), a lone vowel (' ',c,' '), and a syllable gives three inventory members; distinct Korean characters have distinct decompositions.",
  "every Unicode code point",
  "More than a million code points; boundary code points are what tests skip.",
  H + ":decompose", H + ":character_is_korean")
P("C03", "compose rejects exactly the triples that are not jamo inventory members",
  "compose(cho, jung, jong) raises ValueError if and only if some component is missing from its inventory, and otherwise returns a complete syllable.",
  "every triple of strings/characters",
  "Negative space over all characters cannot be enumerated by tests.",
  H + ":compose")
P("C04", "character class predicates are consistent",
  "character_is_korean holds exactly for complete syllable, jaum or moum; these three classes and the number, english and punctuation classes are pairwise disjoint.",
  "every Unicode code point",
  "Disjointness and coverage is a statement over the whole code space.",
  H + ":character_is_korean", H + ":character_is_complete_korean", H + ":character_is_jaum", H + ":character_is_moum", H + ":character_is_number", H + ":character_is_english", H + ":character_is_punctuation")
P("C05", "ConvolutionHangleEncoder decodes what it encodes",
  "onehot_to_sent(sent_to_onehot(s)) returns the cleaned sentence: every character outside Hangul syllables/jamo, digits and space replaced by a space, whitespace runs collapsed to one space and both ends stripped. In particular it never raises, and text that is already clean round-trips unchanged.",
  "every input string",
  "Round trip must hold for every string, including jamo that share an index between initial and final position.",
  H + ":ConvolutionHangleEncoder.sent_to_onehot", H + ":ConvolutionHangleEncoder.onehot_to_sent")
P("C06", "encoder output is a well-formed one-hot layout",
  "sent_to_onehot yields one entry per character of the cleaned sentence; each entry is either one index below 80 or a triple with indices in [0,19), [19,40), [40,68); encode(s) is a len x 80 0/1 matrix whose row i has ones exactly at the indices of entry i (one or three ones).",
  "every input string, every row and column",
  "Index-range claims quantify over all characters.",
  H + ":ConvolutionHangleEncoder.encode", H + ":ConvolutionHangleEncoder.sent_to_onehot")
P("C07", "onehot_to_sent validates indices exactly",
  "onehot_to_sent raises ValueError iff some entry is a singleton outside [0,80) or a triple with a component outside its block; otherwise every entry contributes exactly one character (or the text '<unk>').",
  "every list of integer tuples",
  "Acceptance and rejection must be exact over all integer tuples.",
  H + ":ConvolutionHangleEncoder.onehot_to_sent")
P("C08", "levenshtein with default cost is the edit distance and a metric",
  "levenshtein(s1, s2) equals the least total cost over all edit alignments of s1 and s2 with unit insertion, deletion and substitution; it is 0 iff s1 == s2, symmetric, satisfies the triangle inequality, is at least the length difference and at most the longer length.",
  "every pair and triple of strings",
  "Optimality over all alignments and the triangle inequality quantify over infinitely many strings.",
  D + ":levenshtein")
P("C09", "levenshtein with a custom cost table",
  "When len(s1) >= len(s2) and substitution costs are non-negative, levenshtein(s1, s2, cost) is the least cost over all alignments with the given substitution costs; when len(s1) < len(s2) the cost table is silently ignored and the result is the unit-cost distance, so the naive claim that the table is always honoured is false.",
  "every pair of strings and every non-negative cost table",
  "Optimality for arbitrary cost tables and lengths.",
  D + ":levenshtein")
P("C10", "jamo_levenshtein is a bounded, symmetric refinement",
  "jamo_levenshtein(s1, s2) is the least cost over alignments where substituting two distinct Korean characters costs one third of the edit distance of their jamo triples and anything else costs 1; it is symmetric, 0 iff s1 == s2, satisfies the triangle inequality, and never exceeds levenshtein(s1, s2).",
  "every pair and triple of strings",
  "Quantifies over all strings and alignments.",
  D + ":jamo_levenshtein")
P("C11", "jaccard_distance and cosine_distance ranges and symmetry",
  "For non-empty strings jaccard_distance is in [0,1], symmetric, 0 iff both strings use the same characters and 1 iff they share none; cosine_distance (over exact real arithmetic) is in [0,1] and symmetric, 0 for equal non-empty strings. If either string is empty they return 1 and 2 respectively, so distance(s, s) is not 0 for the empty string.",
  "every pair of strings",
  "Cauchy-Schwarz type bounds hold for all inputs only by proof.",
  D + ":jaccard_distance", D + ":cosine_distance")
P("C12", "only_hangle, only_hangle_number and only_text keep exactly the maximal runs of kept characters",
  "Each function returns the maximal runs of kept characters of the input, in order, joined by single spaces. So the result contains only kept characters and single inner spaces, never starts or ends with a space, keeps every kept character in order, and the function is idempotent.",
  "every input string",
  "Interaction of substitution, whitespace collapsing and stripping over all strings.",
  NZ + ":only_hangle", NZ + ":only_hangle_number", NZ + ":only_text")
P("C13", "normalize keeps exactly the character classes enabled by its flags",
  "With remove_repeat=0, normalize(doc, alphabet, number, punctuation, symbol) is the maximal runs of kept characters joined by single spaces, where kept characters are Hangul, the two quote characters, and the classes whose flag is on; every combination of flags is idempotent. The hyphen is never kept and quotes always survive, even with every flag off.",
  "every string and all 16 flag combinations",
  "Four sequential regular-expression passes over any string.",
  NZ + ":normalize")
P("C14", "repeat_normalize shortens exactly the runs of three or more word characters",
  "repeat_normalize(s, n) with n > 0 replaces every maximal run of at least three equal word characters with n copies, leaves all other runs alone, then collapses whitespace and strips; for n <= 2 the result has no word-character run longer than 2 and the function is idempotent; n <= 0 only normalises whitespace; for n > 3 runs get longer.",
  "every string, every num_repeats",
  "Run-length semantics over unbounded strings.",
  NZ + ":repeat_normalize")
P("C15", "emoticon_normalize is total and acts locally",
  "emoticon_normalize never raises; each input character contributes to the output depending only on itself and its two neighbours: characters that are not syllables adjacent to a lone jamo are copied unchanged, and text with no lone jamo is only repeat-normalised. A syllable next to a lone consonant that does not match is dropped, so text is not always preserved.",
  "every string",
  "The window rules interact at every position; loss occurs only for particular neighbourhoods.",
  NZ + ":emoticon_normalize")
P("C16", "remain_hangle_on_last and normalize_sent_for_lrgraph produce eojeols ending in Hangul",
  "remain_hangle_on_last(e) is the longest prefix of e that ends with a Hangul character (leading whitespace stripped), or '' if there is none. Every eojeol of normalize_sent_for_lrgraph(s) is non-empty, ends in Hangul and contains only text characters without brackets; the result is single-space separated and the function is idempotent.",
  "every string",
  "Must hold for all mixtures of symbols and Hangul.",
  NZ + ":remain_hangle_on_last", NZ + ":normalize_sent_for_lrgraph")
P("C17", "tokenizer.normalize never fails and keeps the eojeol structure",
  "soynlp.tokenizer normalize(s, n) never raises, returns one non-empty eojeol per input eojeol in order (n > 0), separated by single spaces; eojeols with no Hangul jamo and no block repeated four times are unchanged.",
  "every string",
  "compose may raise for arbitrary jamo; absence of errors must hold for every neighbour pair.",
  TN + ":normalize", TN + ":_normalize_emoji", TN + ":_remove_repeat")
P("C18", "RegexTokenizer only inserts boundaries",
  "Concatenating the tokens of RegexTokenizer.tokenize(s) gives exactly s without its whitespace; no token is empty or contains whitespace, and no token crosses an eojeol boundary. Every maximal run of Hangul syllables, of lone consonants and of lone vowels inside an eojeol is exactly one token.",
  "every string (and any regular expression engine whose matches are non-empty substrings)",
  "The replay loop edits the string five times; preservation must hold for any set of matches.",
  T + ":RegexTokenizer.tokenize", T + ":RegexTokenizer._tokenize")
P("C19", "LTokenizer picks the best-scoring left part",
  "For each eojeol LTokenizer yields (l, r) with l + r == eojeol; eojeols of length <= 2 are kept whole; otherwise len(l) >= 2 and with tolerance <= 0 l has the maximum score and is the longest among those, with tolerance > 0 it is the longest l whose score is within tolerance of the maximum. Flattening concatenates these without empty parts and remove_r returns just the l parts.",
  "every sentence, score table, default score and tolerance",
  "Optimality over all candidate splits and score tables.",
  T + ":LTokenizer.tokenize")
P("C20", "MaxScoreTokenizer tiles every eojeol",
  "With max_length >= 2 tokenize never raises and for each eojeol the sub-tokens are non-empty slices, in order, contiguous, from 0 to the length, so that concatenating all flattened tokens gives the sentence without whitespace. With max_length < 2 it raises IndexError exactly when some eojeol has three or more characters.",
  "every sentence, score table, max_length and default score",
  "Text preservation depends on gap filling for arbitrary scores and lengths.",
  T + ":MaxScoreTokenizer.tokenize", T + ":MaxScoreTokenizer._recursive_tokenize")
P("C21", "MaxScoreTokenizer selects greedily by score, then length, then position",
  "For an eojeol with fewer than 204 characters the multi-character tokens chosen are exactly those obtained by repeatedly taking the best remaining candidate (highest score, then longest, then leftmost) that overlaps nothing already taken: no candidate substring that overlaps only worse-ranked choices is skipped. For longer eojeols the cut-off after 101 selections can stop early and this fails (a 205-character witness).",
  "every eojeol and score table",
  "Greedy optimality for all score tables, and a cut-off that only shows on eojeols of more than 200 characters.",
  T + ":MaxScoreTokenizer._find", T + ":MaxScoreTokenizer._initialize")
P("C22", "scores reported by MaxScoreTokenizer",
  "Every unflattened sub-token is (text, begin, end, score, length) with text == eojeol[begin:end] and length == end - begin; chosen candidates carry scores.get(text, default). Eojeols of length <= 2 and inner gaps always carry the default score even when the table has an entry, so the naive claim score == scores.get(text, default) is false.",
  "every sentence and score table",
  "Depends on which branch emitted the token.",
  T + ":MaxScoreTokenizer._recursive_tokenize")
P("C23", "MaxLRScoreTokenizer candidate and selection soundness",
  "The L-R words selected for an eojeol are pairwise non-overlapping, sorted by position, each l is a dictionary L word and each non-empty r is a dictionary R word, and l + r is the text at its position. When the call returns, the text emitted for an eojeol is eojeol[:end of the last selected word] followed by eojeol[end of its L part:], so with an empty R dictionary the text is preserved; in general it is not (R text is emitted twice), and with Dl={아이}, Dr={는} tokenising 아이는 raises AttributeError.",
  "every eojeol, dictionaries and preferences",
  "Non-overlap must hold for all dictionaries; failure needs specific dictionary shapes.",
  T + ":MaxLRScoreTokenizer._tokenize", T + ":MaxLRScoreTokenizer._base_tokenizing_subword")
P("C24", "NounLMatchTokenizer takes the greedy longest noun prefix chain",
  "For each eojeol the nouns found are exactly those of greedy longest matching from the left end (each next noun is the longest noun starting where the previous one ended, stopping at the first position where no noun starts); composed output is a prefix of the eojeol, eojeols without a noun prefix are dropped.",
  "every sentence and noun set",
  "Greedy maximality over all noun sets.",
  NT + ":NounLMatchTokenizer.tokenize")
P("C25", "NounMatchTokenizer returns nouns with positive score",
  "With flatten=False and compose_compound=False every returned word is a slice of its eojeol with positive score, in order and non-overlapping; flattened composed output consists of non-empty substrings of the eojeols. A noun that is an entire eojeol of length <= 2 is always dropped, whatever its score.",
  "every sentence and score table",
  "Loss occurs for all short eojeols; tests use long ones.",
  NT + ":NounMatchTokenizer.tokenize")
P("C26", "LRGraph keeps its two indexes consistent",
  "After any sequence of constructing, adding, removing and resetting, the count of (l, r) seen from the left and from the right is the same for every non-empty r, no stored count is <= 0 when the initial counts and added counts are positive, and no word is left with an empty neighbour table.",
  "every initial graph and every sequence of operations",
  "An invariant over all histories.",
  U + ":LRGraph", U + ":LRGraph.add_lr_pair", U + ":LRGraph.remove_lr_pair", U + ":LRGraph.reset_lrgraph")
P("C27", "LRGraph removal subtracts and never underflows",
  "remove_lr_pair(l, r, c) changes only the count of (l, r): it becomes count - c if that is positive and the pair disappears otherwise; removing an absent pair does nothing. remove_eojeol does this for every split of the eojeol and for no other pair; after add_eojeol(e, c) succeeds remove_eojeol(e, c) restores all counts.",
  "every graph, pair, count and eojeol",
  "Frame condition over all other pairs.",
  U + ":LRGraph.remove_lr_pair", U + ":LRGraph.remove_eojeol")
P("C28", "LRGraph addition needs an existing pair",
  "add_lr_pair(l, r, c) raises KeyError iff the pair is not already in the graph, and otherwise adds c to that pair only; add_eojeol raises iff some split is absent, and in that case the splits before the absent one have already been incremented (it is not atomic).",
  "every graph, pair and eojeol",
  "Partial updates before an exception.",
  U + ":LRGraph.add_lr_pair", U + ":LRGraph.add_eojeol")
P("C29", "LRGraph reset restores the original and freeze forbids it",
  "After any sequence of add/remove operations reset_lrgraph() restores every count to its value at construction; after freeze() reset leaves the current counts unchanged; copy_compatified_lrgraph_origin() of a graph never frozen holds the counts of construction time (IndexError if those are empty), and raises AttributeError after freeze().",
  "every graph and operation history",
  "Restoration must hold after any history.",
  U + ":LRGraph.reset_lrgraph", U + ":LRGraph.freeze", U + ":LRGraph.copy_compatified_lrgraph_origin")
P("C30", "get_r and get_l return the top neighbours by count",
  "get_r(l, topk) lists neighbours of l with their counts, in non-increasing count order, ties in insertion order; topk <= 0 gives all of them, otherwise the first topk, so that every omitted neighbour has a count no larger than any returned one. get_l likewise; the empty r is never reported by get_l.",
  "every graph, word and topk",
  "Top-k optimality over all graphs.",
  U + ":LRGraph.get_r", U + ":LRGraph.get_l")
P("C31", "EojeolCounter to LRGraph and back",
  "to_lrgraph counts pair (l, r) exactly count(l+r) times when 1 <= len(l) <= l_max_length and len(r) <= r_max_length, and not at all otherwise; to_EojeolCounter of that graph gives back exactly the eojeols of length at most l_max_length + r_max_length with their counts. For any graph, to_EojeolCounter() gives each eojeol with a current split the count of the split visited last; with reset_lrgraph=True it is the counter of the graph as constructed, and AttributeError on a frozen graph. The ignore_one_syllable argument has no effect.",
  "every counter and every length limits",
  "Bidirectional exactness over all counters and bounds.",
  U + ":EojeolCounter.to_lrgraph", U + ":LRGraph.to_EojeolCounter")
P("C32", "LRGraph save and load round-trip",
  "If every l is non-empty and l and r contain no whitespace, then loading a file written by save gives a graph with the same original counts and with current counts equal to them; loading an empty file raises IndexError.",
  "every graph of whitespace-free words",
  "Serialisation of every possible graph.",
  U + ":LRGraph.save", U + ":LRGraph.load")
P("C33", "EojeolCounter counts eojeols",
  "Without periodic filtering (min_count <= 1 or checkpoint 0), the count of an eojeol is its number of occurrences if its length is at most max_length and that number is at least min_count, else 0. With periodic filtering the reported count is 0 or the number of occurrences from some checkpoint (or the start) to the end, at least min_count; it is exact for an eojeol that at every checkpoint was either unseen or seen at least min_count times, and may be too low otherwise. An empty corpus raises ValueError.",
  "every corpus and every parameter setting",
  "Filtering interacts with position in the stream.",
  U + ":EojeolCounter._counting_from_sents", U + ":EojeolCounter.__getitem__")
P("C34", "coverage is the removed share of the corpus",
  "After any sequence of remove_covered_eojeols calls on a counter with positive total, coverage equals 1 - (remaining count)/(initial count), lies in [0,1], never decreases, and remaining eojeols are exactly those in no removed set; get_uncovered_eojeols(m) lists those of them with count at least m. On a counter with zero total the call raises ZeroDivisionError after removing.",
  "every counter and every sequence of removals",
  "Monotonicity over all histories.",
  U + ":EojeolCounter.remove_covered_eojeols", U + ":EojeolCounter.coverage")
P("C35", "EojeolCounter save and load round-trip",
  "For whitespace-free non-empty eojeols, load after save restores exactly the same counts and total; the file lists eojeols by decreasing count, ties in code-point order.",
  "every counter",
  "Serialisation of every possible counter.",
  U + ":EojeolCounter.save", U + ":EojeolCounter.load")
P("C36", "DoublespaceLineCorpus length agrees with iteration",
  "For a corpus file with at least one line after the skipped header, when neither num_doc nor num_sent is limited, len(corpus) equals the number of documents (or sentences with iter_sent) that iteration yields; iterated sentences are non-empty and stripped; with num_doc = k > 0 iteration yields the first min(k, lines) documents. With limits, reading stops at the first document that exhausts the file, reaches num_doc or exceeds num_sent sentences, and length and iteration agree, except with iter_sent when the documents read hold no sentence: then the length is 0 while iteration yields all sentences of the file. A file with only the header makes len() fail and limits raise UnboundLocalError.",
  "every file content and limit",
  "Counting and iterating are separate code paths.",
  U + ":DoublespaceLineCorpus")
P("C37", "most_similar excludes the query and is sorted",
  "most_similar returns [] for an unknown query; otherwise a list without the query itself, in non-increasing similarity; no item left out is more similar than one returned; with topk > 0 between min(topk, n-1) and topk + 1 items, and exactly min(topk, n-1) when the query is strictly the nearest to itself.",
  "every vector table, index maps and topk",
  "Tie handling for duplicate vectors.",
  U + ":most_similar")
P("C38", 'WordExtractor counts eojeol prefixes and suffixes exactly',
  'After train(sents) without periodic pruning, the L frequency of w is (prior L frequency if cumulate, else 0) + the number of eojeol occurrences of length >= 2 that start with w, for 1 <= len(w) <= max_left_length + 1, and 0 if that total is below min_frequency; the R frequency likewise counts eojeols longer than w that end with w, for 1 <= len(w) <= max_right_length. It does not depend on the order of sentences. With num_for_pruning > 0 a count is the exact count over a final segment of the corpus cut after a pruning point. Two cumulative calls are not the same as one call on both corpora. train raises (ValueError) exactly on an empty corpus.',
  'every training history, corpus, parameters and word',
  'Counts over all corpora and histories.',
  W + ":WordExtractor.train", W + ":WordExtractor.frequency")
P("C39", 'cohesion scores are defined and within [0,1]',
  'After any sequence of train calls: a word is at most as frequent as each of its non-empty prefixes (L) and suffixes (R); cohesion_score never raises, both values are in [0,1], are 0 exactly for one-character or unseen words, and otherwise equal (freq(w)/freq(first or last character))^(1/(len(w)-1)).',
  'every training history and word',
  'Requires a prefix-monotonicity invariant that survives pruning.',
  W + ":WordExtractor.cohesion_score")
P("C40", 'branching entropy and accessor variety',
  'After one training: accessor_variety counts exactly the distinct characters that extend the word inside eojeols (counts >= min_frequency) plus those adjacent across an eojeol boundary, the sentence read as a ring (counts >= 2), and branching_entropy is the Shannon entropy of those counts. After any history entropy is >= 0, is 0 iff the variety is at most 1 and is at most ln(variety). The all-words tables agree with the single-word functions for 1 <= len < max_right_length (left) / max_left_length (right), say 0 elsewhere (so they do not agree for longer words), and list exactly the words with a non-zero variety.',
  'every training history and word',
  'Agreement of two separate implementations on all corpora.',
  W + ":WordExtractor.branching_entropy", W + ":WordExtractor.accessor_variety", W + ":WordExtractor.all_branching_entropy", W + ":WordExtractor.all_accessor_variety")
P("C41", 'extract applies every threshold and nothing else',
  'extract(scores) never raises after training and returns exactly the words that pass every threshold (cohesion only for two or more characters), without remove_subwords; with it a word is dropped iff some passing word one character longer takes more than max_droprate_leftside_frequency of its left-side frequency, independent of the order of the words. word_scores lists exactly the frequent words within the length limits with the scores of the single functions.',
  'every training history, score table, thresholds and comparison',
  'Conjunction over all thresholds and words; order independence of deletions.',
  W + ":WordExtractor.extract", W + ":WordExtractor.word_scores")
P("C42", 'bigram extraction counts adjacent pairs',
  'Without checkpoints, or with no more sentences than the checkpoint, the count of a bigram is the number of adjacent occurrences in the tokenised sentences if at least min_frequency; with checkpoints it is the count over the sentences from some checkpoint on. Unigram counts are the number of kept bigrams containing the word. extract returns exactly the kept bigrams whose score (frequency, (f - min_frequency)/(u1 u2), ln(2 N f/(u1 u2))) reaches the threshold, never raises, and topk only sorts. train raises only on an empty corpus with verbose.',
  'every corpus, tokenizer and parameters',
  'Streaming pruning over all corpora.',
  PH)
P("C43", "vectorizer vocabulary is a bijection; encode, decode, transform, to_file, save and load agree",
  "After fit (or after load / setting a vocabulary list without repetitions) indices 0..n-1 and terms correspond one to one; encode_a_doc_to_list followed by decode_from_list returns exactly the in-vocabulary tokens in order, decode then encode drops exactly the out-of-range indices; encode_a_doc_to_bow maps the index of each in-vocabulary term of the document to its number of occurrences and decode_from_bow inverts it; transform gives the document-term matrix whose entry (i,j) is the number of occurrences of term j in document i; to_file writes that same matrix in Matrix Market form with the right element count; save then load restores the vocabulary (always, with the default tokenizer).",
  "every configuration, corpus and document; every vocabulary list",
  "Round trips and counts for all documents and vocabularies.",
  V + ":BaseVectorizer")
P("C44", "vectorizer frequency limits",
  "The fitted vocabulary is exactly the terms whose document frequency lies in [int(n*min_df), int(n*max_df)] and in [min_tf, max_tf], ordered by decreasing document frequency, ties by first appearance; fit succeeds iff there is a document. min_tf/max_tf do not bound the number of occurrences (refuted), and stopwords and lowercase have no effect.",
  "every corpus and limits",
  "Threshold exactness over all corpora.",
  V + ":BaseVectorizer.fit")
P("C45", "sent_to_word_contexts_matrix counts window co-occurrences",
  "The vocabulary is exactly the words occurring at least min_tf times, by decreasing frequency; the entry of two of its words is the sum, over all sentences and all pairs of positions holding them at distance 1..windows, of the weight of the distance (1, or (windows-d+1)/windows with dynamic weights); the matrix is symmetric and square, its side is one more than the largest index of a word that has a context (not always the vocabulary size: refuted); the call succeeds iff two frequent words co-occur.",
  "every corpus, tokenizer, window, threshold and set-iteration order",
  "Window arithmetic at sentence boundaries for all sentences.",
  WC)
P("C47", "tag dictionary operations",
  "After any sequence of add_words/remove_words on a Dictionary, whatever calls failed, word_is_tag(w, t) holds iff w is non-empty and was added to t (initially or later) and not removed from t since; get_pos(w) lists exactly those tags, each once; the maximal length bounds every word and never decreases; the calls that raise (unknown tag without force, removing from an unknown tag) leave the dictionary unchanged; saving and loading keeps every tag and word. A set object passed to add_words under two new tags is shared between them.",
  "every initial dictionary and operation sequence",
  "Invariant over all histories.",
  PD)
P("C48", "the candidates of the LR template matcher",
  "LRTemplateMatcher proposes for a token exactly the segments L or L + R where L has at least two characters and is a dictionary word under an L tag and R, if present, directly follows and is a dictionary word under a tag the templates allow after that of L; candidates come sorted by their begin. A one-syllable L is never proposed, even if it is in the dictionary.",
  "every dictionary history, templates and token",
  "Exact set over all dictionaries and strings.",
  PT, PD)
P("C49", "LREvaluator selects greedily and without overlaps",
  "The words chosen by the LR evaluator are candidates, never overlap, and a candidate is omitted iff it overlaps a chosen one ranked before it (higher score, or equal score and earlier in the candidate list). The result comes sorted by the R strings, not in text order. The is_verb weight is given to adverbs.",
  "every list of distinct candidates and every score function",
  "Greedy selection over all candidate sets.",
  PE)
P("C50", "eojeol tagging preserves the text",
  "The eojeol template matcher proposes exactly the documented readings of an eojeol (known single word, unknown word if there is none, known L + known R allowed by a template, greedy compounds of nouns or of adverbs); every reading concatenates to the eojeol. SimpleEojeolEvaluator picks the first reading with the best score, so tagging never fails, preserves the text of every eojeol and gives a word only tags it has in the dictionary; a known noun is tagged as one noun. With the default weights a compound of three known nouns loses against the unknown reading.",
  "every dictionary, template set, weights and sentence",
  "All dictionaries and sentences.",
  PT, PG, PE)
P("C51", "noun score prediction: roles, exact decision table, bounds",
  "Every right part of a word has exactly one role (end, tail of a longer feature, common, positive, negative, unknown). predict(word) is exactly the documented decision table over the role totals: score (pos - neg)/(pos + neg) if the number of informative right parts exceeds min_num_of_features, otherwise the rules for frequent stand-alone eojeols, for common features and for diverse first characters, otherwise 0. The score lies in [-1, 1] and the support between 0 and the total frequency of the word.",
  "every graph, word, feature sets and thresholds",
  "Range and case analysis over all inputs.",
  N2 + ":LRNounExtractor_v2.predict", N2 + ":LRNounExtractor_v2._predict")
P("C52", "noun postprocessing removes exactly what it says",
  "detaching_features removes exactly the nouns of more than two characters that split into a known noun of at least two characters and a positive feature of at least two; ignore_features exactly the nouns that are features; check_N_is_NJ exactly the nouns that split into a more frequent known noun (at least two characters) and a josa that is not a noun suffix, where the shorter noun is seen with at least min_num josa. Nothing is added and the remaining scores are unchanged.",
  "every noun table, feature set and graph",
  "Exactness over all tables.",
  NP)
P("C53", "conjugate returns exactly the forms of the conjugation rules",
  "For every stem that ends in a complete syllable and every ending that begins with a complete syllable or one of the consonants that join a stem, conjugate does not raise and returns exactly the surface forms given by the irregular and contraction rules, and the regular form when no rule applies; there is at least one; each keeps all of the stem but its last two characters (its last one, unless the stem ends in 르) and all of the ending but its first. Vowel harmony only replaces the vowel of the first syllable of the ending by its bright or dark counterpart. The other inputs raise the stated exceptions. conjugate_chat agrees on the endings conjugate knows, returns the stem for the empty ending and otherwise closes the last syllable with the emoticon consonant. The stem forms are exactly those listed.",
  "every stem and ending",
  "All stem/ending pairs.",
  CJ + ":conjugate", CJ + ":conjugate_chat", CJ + ":_conjugate_stem")
P("C54", "lemma candidates are exactly the proposals that conjugate back to the word",
  "lemma_candidate(l, r) returns, without duplicates, exactly the (stem, ending) pairs proposed by the inverse rules or listed in the table of predefined pairs for which l + r is among conjugate(stem, ending) and whose ending is not empty and does not begin with a syllable closed by ㅎ. The other inputs raise the stated exceptions. A table keyed by words (the default) is never consulted. The chat variant also analyses the word without an emoticon consonant that closes it. Lemmatizer.lemmatize returns exactly the candidates of every split whose stem (and, if checked, ending) is known; a caller's table adds exactly the pairs it lists for a split that conjugate back; a word listed there counts as a pair if it has two characters and otherwise makes the analysis of that split raise; Lemmatizer.candidates raises on every non-empty word.",
  "every split of every word, every table and lexicon",
  "Soundness and completeness over all words.",
  LM + ":lemma_candidate", LM + ":lemma_candidate_chat", LM + ":Lemmatizer")
P("C55", "analysis inverts conjugation, class by class",
  "For each conjugation class a surface form made by that rule is analysed back to its stem and ending at some split under the stated condition on the class (for instance always for the ㄷ and ㅅ irregulars and the ㅜ/ㅗ contractions; for the 르 irregular when the preceding syllable is open); a pair that is found is returned by lemma_candidate at that split and by Lemmatizer when its lexicons know it. The 러 and 여 irregulars, contraction of equal vowels, 가 + 아라, 답 + 아 and final-consonant clashes are not inverted.",
  "every stem and ending of the class",
  "Completeness over all words in the class.",
  CJ + ":conjugate", LM + ":lemma_candidate")
P("C57", "extraction of endings",
  "EomiExtractor.predict(r) gives every left part of r exactly one role (ignored when the whole word is a noun or the stem form goes on into r; positive when it is a stem form or a one-syllable noun and a stem form; unknown when it ends in a stem form; negative otherwise); the score is (pos-neg)/(pos+neg) or 0, in [-1,1], the frequency pos+unk when the score reaches the threshold and neg+unk otherwise, and (0,0) results with fewer different stem forms than required. extract predicts every right part of a stem form, longer first, from the eojeols that no longer accepted ending has taken (the scores do not depend on any iteration order); it returns exactly the canonical endings of analyses with a known stem, with the summed counts and the mean score weighted by the counts; it leaves the graph as it was.",
  "every corpus, stem set, noun set, suffix condition and thresholds",
  "A fixpoint over all candidates and a sum over all analyses of all eojeols; independence of set iteration order.",
  EO)
P("C69", "extraction of stems",
  "StemExtractor knows as left/right parts exactly the two pieces (cut at the stem's length) of the counted eojeols that a known stem and a known ending conjugate to. predict gives every right part exactly one role; the score is (pos-neg)/(pos+neg) or 0, in [-1,1]; the result is (0,0) with too few different first characters or too little entropy of the unambiguous known endings, (0,freq) with too low a frequency, (score,freq) otherwise. extract accepts exactly the left parts (longer than one character, not ending in 다, not known, not ignored) that reach both thresholds, removes those that consist of a stem and an ending or extend another one, and returns the stems of the analyses of their eojeols whose ending is NOT known - so a stem that occurs with known endings only is never returned - with the pair (sum of scores, score-weighted mean frequency), not (frequency, score).",
  "every corpus, stems, endings, ignored words and thresholds",
  "Exact sets and sums over all analyses of all eojeols.",
  ST)
P("C58", "separation of adjectives and verbs",
  "Every analysis (stem, ending) of every predicator goes to exactly one of the two returned tables, with the predicator's frequency, and nothing is lost. The decision depends on the stem alone: a verb-dictionary stem is a verb, otherwise an adjective-dictionary stem is an adjective, otherwise the suffix rules decide, otherwise the stem is a verb iff at least two different test forms (declarative, imperative, propositive) are among the predicators.",
  "every predicator table whose stems are proper Hangul stems, and every dictionary",
  "Partition and decision over all tables; the answer for one stem depends on all the other words.",
  AV, PR + ":PredicatorExtractor._separate_adjective_verb")
P("C59", "the deprecated soynlp.hangle.normalize keeps exactly the requested classes",
  "hangle.normalize(doc, english, number, punctuation, remove_repeat, remains) returns the maximal runs of kept characters joined by single spaces; kept are Hangul, the enabled classes and the non-whitespace members of remains. With remove_repeat = n > 0, runs of four or more (not three) equal word characters are first shortened to n.",
  "every document, flag combination and remains set",
  "All strings and flag combinations.",
  H + ":normalize")
P("C60", "sort_by_alphabet rewrites a file in sorted order",
  "The new file content is the non-blank lines of the old one, stripped, in code-point order, each ended by one newline, no line lost or duplicated; sorting twice is the same as sorting once.",
  "every file content",
  "Serialisation and ordering over every file.",
  U + ":sort_by_alphabet")
P("C61", "LRGraph from sentences weights pairs by the length of l",
  "LRGraph(sents=...) stores pair (l, r) iff 1 <= len(l) <= l_max_length, len(r) <= r_max_length and l + r occurs as an eojeol, with value len(l) times the number of occurrences (not the number of occurrences). The constructor raises AssertionError iff l_max_length <= 1 or r_max_length <= 0.",
  "every corpus and limits",
  "Counts over all corpora.",
  U + ":LRGraph.__init__", U + ":LRGraph._construct_graph")
P("C62", "PMI values, threshold and marginals",
  "pmi(X, py, min_pmi, alpha, beta) of a non-empty matrix of positive counts has X's shape and stores, at exactly the stored places (i, j) of X with py[j] > 0 whose ratio (X_ij / total) / (px[i] * (py[j] + alpha)) is at least exp(min_pmi), the logarithm of this ratio; every stored value is at least min_pmi. px holds the row marginals; without beta smoothing the computed py holds the column marginals; both sum to 1, also after smoothing. A symmetric matrix has a symmetric PMI. pmi_memory_friendly called as documented raises AssertionError unless the matrix has one column.",
  "every count matrix, threshold, alpha >= 0 and 0 < beta <= 1",
  "Real-valued identities over all matrices; tests can only sample.",
  "soynlp/word/_pmi.py:pmi", "soynlp/word/_pmi.py:_logarithm_and_ppmi", "soynlp/word/_pmi.py:pmi_memory_friendly")
P("C63", "LR tagging with the unknown-word postprocessor",
  "UnknowLRPostprocessor completes chosen words that stand in text order without overlap to a tiling of the token: the words are kept, everything added is unknown, and the text is preserved. A token without any candidate disappears from the output, with or without the postprocessor. Because LREvaluator orders its choice by the R strings, text is duplicated in general.",
  "every token, dictionary, templates and weights",
  "Tiling over all tokens and candidate sets.",
  PT, PG, PE)
P("C64", "feature sets of the noun predictor",
  "Loading feature files makes positive, negative and common sets that are pairwise disjoint: common is the intersection, the others the differences. append_features adds exactly the given features, to the common set where they were in the opposite set; positive and negative stay disjoint, but common may overlap both. Any explicit postprocessing option of the constructor raises TypeError.",
  "every file content and every sequence of appended features",
  "Set algebra over all files.",
  N2 + ":LRNounExtractor_v2._load_predictor", N2 + ":LRNounExtractor_v2._append_features", N2 + ":LRNounExtractor_v2.__init__")
P("C65", "batch noun prediction: longest words first, each eojeol used once",
  "After training on eojeol counts, the candidates are exactly the words some counted eojeol continues with a positive feature; every candidate gets the prediction computed from exactly those of its eojeols that no longer accepted candidate begins, and the graph left over holds exactly the eojeols not begun by an accepted candidate. The scores and the remaining graph do not depend on the iteration order of the feature sets.",
  "every eojeol counter, limits, feature sets and threshold",
  "A history-dependent greedy process over all corpora and hash orders.",
  N2 + ":LRNounExtractor_v2._batch_predicting_nouns", N2 + ":LRNounExtractor_v2._noun_candidates_from_positive_features")
P("C66", "extraction of nouns",
  "After training, extract returns exactly the merged table of compounds and predicted nouns that reach the score threshold and the frequency, after the three post-processing steps, together with the count of eojeols the nouns explain. With the default reset the trained graph is left as it was and a second call returns the same nouns; without reset it need not. extract_pos_feature never has an effect. The score and frequency of a compound are exchanged, so a minimal frequency above 1 drops every compound.",
  "every eojeol counter, limits, feature sets, josa and suffix lists, thresholds and options",
  "The result depends on the whole corpus and on a history of graph updates.",
  N2 + ":LRNounExtractor_v2.extract", NP + ":detaching_features", NP + ":ignore_features", NP + ":check_N_is_NJ")
P("C67", "coverage of the extracted nouns",
  "The number of covered eojeols is exactly the total count of the distinct eojeols that begin with an extracted noun (a noun candidate within the length limits; one-syllable nouns must be followed by nothing, a positive or a common feature); the rows left in the graph are exactly those of the other eojeols. The number lies between 0 and the corpus size and equals it if every eojeol is explained.",
  "every eojeol counter, noun table, feature sets and limits",
  "A sum over all corpora while the graph is being changed.",
  N2 + ":LRNounExtractor_v2._check_covered_eojeols")
P("C68", "compound nouns",
  "decompose_compound returns the word itself or at least two known nouns that spell it (up to a trailing positive feature); which of the two is determined exactly by the best-scoring cut. The table of compounds has exactly the nouns that some candidate word splits into; the count of a compound is the number of whole eojeols made of it, its score the best score of its parts.",
  "every word without blanks, noun table and corpus",
  "Quantifies over all words and noun tables.",
  N2 + ":LRNounExtractor_v2.decompose_compound", N2 + ":LRNounExtractor_v2.extract_compounds")
P("C70", "domain-specific josa",
  "extract_domain_pos_features never fails on an LRGraph made from positive counts and returns exactly the strings that are no known or ignored feature, no good noun, follow good nouns often enough, whose left parts have enough different last characters with enough entropy, whose nouns have enough entropy, and whose score (pos - neg) / (pos + neg) and frequency pos reach the thresholds; a string that is itself a noun followed by a known or found josa counts negatively. This self-reference has exactly one solution, so the order in which Python iterates over its sets does not matter. Only the shortest noun a string begins with is split off.",
  "every eojeol counter, prediction table, feature sets and thresholds",
  "Exactness over all corpora and independence of hash order.",
  "soynlp/noun/_josa.py:extract_domain_pos_features", "soynlp/noun/_josa.py:predict", "soynlp/noun/_josa.py:_is_NJ", "soynlp/noun/_josa.py:_last_character_criterions")
P("C71", "table of predicators",
  "Without given candidates the candidates are the eojeols of Hangul syllables whose count is strictly greater than the minimum. The table has exactly those candidates that are not a known noun followed by a josa and have an analysis; its analyses are all cuts whose stem and ending are known and conjugate back to the word. Suspicious endings, used only by words most of which begin with a known noun, are then taken away; the covered and total counts are the sums over the table and over the corpus. After the clean-up right analyses may be lost, a word may remain without analysis and the result may depend on set order; given candidates that are not Hangul raise TypeError.",
  "every eojeol counter, candidate table, stems, endings, nouns and josas",
  "Exactness over all corpora and dictionaries, and the influence of set order, which a test run sees only once.",
  PR + ":PredicatorExtractor.extract", PR + ":PredicatorExtractor._extract_predicator", PR + ":PredicatorExtractor._as_lemma_candidates", PR + ":PredicatorExtractor._remove_wrong_eomis")
P("C72", "dictionaries, training and learning of the predicator extractor",
  "The stems are the union of the adjective and verb stems; a noun is dropped at construction iff some stem is the noun and one more character, or the noun and two more characters of which the first does not make another noun. A frequency dictionary file gives exactly the words whose count reaches the minimum. Training on an EojeolCounter keeps its counts that reach the minimum; training on sentences counts every eojeol of at most fifteen characters occurring at least max(2, minimum) times. Learning first extends the endings and then the stems, from the eojeols that do not begin with a known noun; with both switches off nothing changes.",
  "every dictionary, corpus and parameter setting",
  "Counts over all corpora and a history of two learning phases.",
  PR + ":PredicatorExtractor.__init__", PR + ":PredicatorExtractor._remove_stem_prefix", PR + ":PredicatorExtractor.train", PR + ":PredicatorExtractor._extract_eomi", PR + ":PredicatorExtractor._extract_stem")
V1 = "soynlp/noun/_noun_ver1.py:LRNounExtractor"
P("C73", "training of the first noun extractor",
  "Loading predictor files gives every right part the largest coefficient read for it, each file up to its first malformed line. train fails only on the empty corpus; afterwards words is exactly the set of beginnings (up to max_left_length characters) of at least min_noun_frequency space-separated words, and the graph stores (l, r) exactly when l is such a beginning and r is empty or a frequent ending shorter than max_right_length, with the number of occurrences of the word l + r. Right parts of exactly max_right_length characters are lost, and a word after a tab is not in the vocabulary.",
  "every set of files, corpus, normalization and limits",
  "Exact contents for every corpus and file.",
  V1 + ".__init__", V1 + "._load_predictor", V1 + ".train", V1 + "._scan_vocabulary", V1 + "._build_lrgraph")
P("C74", "prediction and extraction of the first noun extractor",
  "predict returns the mean of the coefficients of the right parts, weighted by count, over those with a coefficient that no longer feature covers, and the proportion of counted to known and unknown; with too few right parts it returns the score of the best split into a known noun and a noun or feature. Without a noun table the score lies in the range of the coefficients and the proportion in [0, 1]. extract returns exactly the candidates of at least two characters that reach min_noun_score, except words ending in a full stop or comma and words made of a shorter noun and a feature above the threshold whose cohesion does not grow; the frequency is the number of occurrences no longer noun claims; the extractor is left unchanged, so a second call gives the same. Compounds of two nouns are never extracted although predict recognises them, and frequencies below min_noun_frequency are returned.",
  "every corpus, candidate list, coefficients and thresholds",
  "Exactness over all corpora, with real-valued cohesion and a graph that is changed during the counting.",
  V1 + ".predict", V1 + "._predict", V1 + "._get_subword_score", V1 + ".is_noun", V1 + ".extract", V1 + "._postprocess", V1 + "._to_NounScore")
NW = "soynlp/noun/_noun_news.py:NewsNounExtractor"
P("C75", "construction, training and prediction of NewsNounExtractor",
  "Without a base dictionary the coefficients are the largest read for each right part, the josas are the right parts with a coefficient over 0.1 and '는', and the verbs are the first tab-separated columns of the dictionary files; with a base dictionary that is not empty the construction raises NameError. train fails only on the empty corpus; afterwards the left-to-right table has (l, r) exactly when l and r are within the limits and l + r is a word of the corpus, with its number of occurrences, the right-to-left table is its transpose without the empty right part, and the word, left and right counts are those of the corpus. predict(l) returns the mean coefficient, over the occurrences whose right part has a coefficient, the frequency, the proportion of right parts with a coefficient among those that are not empty, the proportion of occurrences as a whole word, and the number and proportion of positive features; scores lie between the extreme coefficients and proportions between 0 and 1.",
  "every set of files, corpus, limits and string",
  "Exact contents of the tables and scores for every corpus.",
  NW + ".__init__", NW + "._load_predictor", NW + "._load_dictionary", NW + ".train", NW + "._build_graph", NW + ".predict")
P("C76", "extraction of nouns by NewsNounExtractor",
  "With a positive min_frequency (or default candidates, or a threshold that is not negative) extract never fails. Its result is exactly: the nouns already in the dictionary from earlier calls, the two first characters of words that nearly always stand alone and continue with a verb, the candidates whose score and frequency exceed the thresholds and that pass every filter (not a noun with the beginning of a josa, not the beginning of a noun ending like a josa, not a rare noun + beginning of a verb, typical right parts or a compound, no verb ending, not mostly followed by 하-), and the compounds of nouns among the words that stand alone; every value is the score predict gives. The membership conditions have exactly one solution. min_feature_proportion bounds the frequency, not the feature proportion, and earlier results are never dropped.",
  "every corpus, coefficients, dictionaries, candidates, thresholds and earlier results",
  "Exactness over all corpora and histories of calls, with conditions that depend on what was accepted before.",
  NW + ".extract", NW + "._pre_eojeol_analysis", NW + "._postprocessing", NW + "._post_eojeol_analysis", NW + "._suffix_filter", NW + "._unijosa_filter", NW + "._dang_hada_filter")
PO = "soynlp/pos/_news_pos.py:NewsPOSExtractor"; PC = "soynlp/pos/_chat_pos.py:ChatPOSExtractor"
P("C77", "Adverbs come from first words of lines and from 하- stems",
  "load_default_adverbs returns exactly the first words of the lines of its file, and raises IndexError when some line has no word; stem_to_adverb returns exactly p + suffix for the stems p + 하 and every suffix, and raises IndexError exactly when there is a suffix and an empty stem.",
  "every file content, stems and suffixes", "Exactness over all contents; tests load the shipped file.",
  "soynlp/pos/_adverb.py:load_default_adverbs", "soynlp/pos/_adverb.py:stem_to_adverb")
P("C78", "The part-of-speech extractors classify the eojeols exactly as their rules say",
  "After training, extract puts every eojeol through: known words; a noun seen alone with a josa, adjective or verb (first cut of at least two characters); compounds of predicators (with new stems, phonological exclusions and, in chats, removal of stems and endings that look wrong); words whose longest cut is a known stem and ending; nouns of one character; forgotten josas, endings and single characters; compound nouns (not in chats); nouns that are something else. The tables of nouns, confused nouns, adjectives, verbs, adverbs, josas and unknown words hold exactly the words these rules give, with counts equal to the sums of the counts of the eojeols that each rule attributes to them; the adjective and verb tables carry the analyses of the extractor, to which exactly the new words' analyses are added; stems and endings change exactly as stated.",
  "every trained extractor (any dictionaries, stems, endings, josas, adverbs and eojeol counts), for news and chats",
  "A ten-stage pipeline in which each stage depends on what earlier stages found; tests see a few corpora.",
  PO + ".extract", PO + "._count_matched_patterns", PO + "._match_word", PO + "._match_noun_and_word", PO + "._match_predicator_compounds", PO + "._lemmatizing_predicators", PO + "._match_syllable_noun_and_r", PO + "._remove_irregular_words", PO + "._match_compound_nouns", PC + "._count_matched_patterns", PC + "._parse_predicator_compounds")
P("C79", "The extractors do not fail and their classes are disjoint",
  "extract succeeds whenever the analyses of the known predicators have Hangul characters at the seam of stem and ending (an empty ending raises IndexError). Nouns are disjoint from adjectives, verbs, adverbs and confused nouns; unknown words are eojeols of at least two characters outside the adjectives, verbs and adverbs. Stems and analyses are never lost, endings never gained, and the chat extractor never learns a stem. It is not true that the count of a noun is at most the number of eojeols that contain it, that every eojeol appears in some table, or that a second extract gives the same result.",
  "every trained extractor, for news and chats", "Holds for all trained states; failures and double counting need unusual dictionaries.",
  PO + ".extract", PC + ".extract")
P("C80","Exact result of MaxLRScoreTokenizer",
  "The constructor merges, for L and for R, the caller's scores over the builder's scores, and adds a preferred word that is in neither with score 1; a word list gives each word score 1. It fails with ZeroDivisionError exactly when some row of the given L-R graph is non-empty and sums to zero. For each eojeol the (L, R) words selected are exactly those determined by the published rules: every occurrence of an L word of the dictionary with every R word (or nothing) following it is a candidate; a candidate is dropped when a later one in the order (L score, position) has an L that properly contains its L and a score that is not much lower; a remaining candidate is not scored when another one begins inside its R with a high or clearly higher score (its L score, or its R score once it has been scored); the others get L score + R score (twice the L score without R) + preferences, and are taken best first unless they overlap a better selected one. These rules determine the selection uniquely. Selection is total unless some L score is -0.00001. The words emitted are the selected ones in text order and, for each uncovered stretch (counted from the end of the L part of the last selected word), the words of MaxScoreTokenizer with the R dictionary; tokenising fails (AttributeError) exactly when one of those words is an R word. A sentence is cut eojeol by eojeol.",
  "every pair of score dictionaries or word lists, every preference, every L-R graph, every builder, every threshold setting and every sentence",
  "the greedy choice depends on the scores and positions of all candidates of the eojeol; a test fixes one dictionary and one sentence",
  "soynlp/tokenizer/_tokenizer.py:MaxLRScoreTokenizer.__init__","soynlp/tokenizer/_tokenizer.py:MaxLRScoreTokenizer.tokenize","soynlp/tokenizer/_tokenizer.py:MaxLRScoreTokenizer._remove_l_subset","soynlp/tokenizer/_tokenizer.py:MaxLRScoreTokenizer._score","soynlp/tokenizer/_tokenizer.py:MaxLRScoreTokenizer._find_best","soynlp/tokenizer/_tokenizer.py:MaxLRScoreTokenizer._postprocessing")
TB = "soynlp/tokenizer/_tokenizer_builder.py:EojeolPatternTrainer"
P("C81","EojeolPatternTrainer counts exactly the patterns of the corpus",
  "After train, the lr-graph and the rl-graph hold the pair (l, r) with count n exactly when l is a left word, r is empty or a right word, 1 <= len(l) <= max_left_length, and the eojeol l+r occurs n > 0 times; there are no empty rows. The left and right words are the caller's when both sets are given and not empty, else the beginnings of up to max_left_length characters, and the proper endings of fewer than max_right_length characters, of at least min_frequency words. Training fails (ZeroDivisionError) exactly when the trainer is verbose and the corpus has between 1 and 39 sentences, or the vocabulary is scanned and a reported sentence is empty; so the default trainer cannot be trained on a small corpus.",
  "every corpus, every setting and every pair of vocabularies", "the counts and the failure depend on the whole corpus and on the position of empty sentences in it",
  TB+".train", TB+"._scan_vocabulary", TB+"._build_graph")
P("C82","EojeolPatternTrainer: what is saved can be loaded",
  "The file begins with the four numbers, then lists for the lr-graph and the rl-graph each row with its total and its words, most frequent first and equally frequent ones in the order of the row. A file saved by a trained trainer is always loaded by any trainer, and gives back max_left_length, max_right_length, min_frequency and exactly the two graphs; verbose stays that of the loading trainer, and the vocabulary becomes the set of words in the graphs, so it can lose words. An empty file raises StopIteration, a first line without exactly four integers ValueError.",
  "every trained trainer, every loading trainer", "the words of the corpus may contain the characters of the file format (brackets, colons, number signs)",
  TB+".save", TB+".load")
P("C83","EojeolPatternTrainer.train_hits and POSExtractor.extract never return",
  "train_hits never returns a ranking: on a trainer it raises TypeError, without graphs NameError, and with the graphs of a trained trainer (some non-empty right part, positive rank) NameError. POSExtractor.extract always raises TypeError, since it passes keyword arguments that the noun extractor does not have.",
  "every argument of train_hits, every corpus given to POSExtractor", "that a method fails for all arguments cannot be shown by examples",
  TB+".train_hits", "soynlp/postagger/_pos_extractor.py:POSExtractor.extract", "soynlp/noun/_noun_ver2.py:LRNounExtractor_v2.__init__")
P("C84","What NewsPOSExtractor and ChatPOSExtractor learn, and train_extract always succeeds",
  "train on a non-empty corpus succeeds (an empty one raises ValueError; no intermediate pruning; stems end in a syllable, no blank line in the adverb file). Afterwards: the eojeols are the words of the preprocessed corpus of at most 19 characters that occur at least min_eojeol_frequency times, with the exact numbers of occurrences; the nouns are those of LRNounExtractor_v2 without compounds on these counts; the josas are the positive features of the noun extractor, or the default ones when there are none; the endings are those of the resources and, if asked for, those learnt from the eojeols of the normalized corpus without nouns, minus the rejected ones; adjectives and verbs are the words of at least two occurrences (more than min_predicator_frequency) of the normalized corpus that conjugate from a stem of the resources and such an ending; adverbs are the first words of the lines of the file and the stems in 하 with 히. Then extract, for news and chats, never fails, and reports adverbs and unrecognised words with their exact numbers of occurrences. ensure_normalized works the wrong way round: True (the default) normalizes, False does not, and the predicators are always learnt from the normalized text, so they need not be words of the counted corpus. The count of a noun can exceed its occurrences as a word.",
  "every non-empty corpus, every setting of the options, every set of resource files, both extractors", "the pipeline feeds each stage with what the former learnt from the whole corpus; one corpus shows one path",
  "soynlp/pos/_news_pos.py:NewsPOSExtractor.train","soynlp/pos/_news_pos.py:NewsPOSExtractor.train_extract","soynlp/pos/_news_pos.py:NewsPOSExtractor._train_noun_extractor","soynlp/pos/_news_pos.py:NewsPOSExtractor._train_predicator_extractor","soynlp/pos/_chat_pos.py:ChatPOSExtractor")
UT = "soynlp/utils/utils.py:"
P("C85","EojeolCounter: what an interrupted save and a failed load leave",
  "A process that dies while saving a counter leaves an initial piece of the file, most frequent eojeols first. Loading a piece that ends at the end of a line gives exactly the eojeols of the complete lines; a piece that ends in a word, or in the blank after it, raises ValueError; a piece that ends in a number loads, with that number cut to its first digits. So what loads has no eojeol that was not counted and no count above the true one, at most one count is too small, and the missing eojeols are at most as frequent as the others; but the truncation is not always noticed. A load that fails leaves the rows before the bad line, coverage 0 and the former count_sum, not the former counter. (Cuts are between characters.)",
  "every counter of non-empty whitespace-free words and every place where the save can be interrupted; every file given to load", "the number of places where a crash can cut a file is unbounded and the effect depends on the place",
  UT+"EojeolCounter.save", UT+"EojeolCounter.load")
P("C86","LRGraph: what an interrupted save and a failed load leave",
  "The file has one line per pair, sorted by left and then right part. An interrupted save leaves an initial piece of it, and loading that piece gives exactly the pairs of the complete lines, or ValueError when the piece ends in or right after the left part, IndexError when it is empty; when it ends in the number the last pair has a count cut to its first digits; when it ends in or right after the right part, that part is taken for the count of the pair with an empty right part, and unless it reads as an integer ValueError is raised. So when no right part begins like an integer, what loads has no pair that was not saved and no count above the true one; otherwise a pair nobody stored can appear. A load that fails leaves the graph in use untouched, but what reset_lrgraph restores is already replaced by pairs of the file.",
  "every graph with whitespace-free parts and positive counts and every place where the save can be interrupted; every file given to load", "the number of places where a crash can cut a file is unbounded and the effect depends on the place",
  UT+"LRGraph.save", UT+"LRGraph.load", UT+"LRGraph.reset_lrgraph")
P("C87","sort_by_alphabet rewrites the file in place: what an interruption loses",
  "If the process dies in sort_by_alphabet, the file is as before, or its lines are the first k lines of the sorted file for some k, possibly followed by a beginning of the next line. So every line but possibly the last was a line of the file; all the other lines are lost, up to the whole file.",
  "every file and every place where the rewriting can be interrupted", "every crash point of every file is quantified over",
  UT+"sort_by_alphabet")
P("C88","An interrupted save of a vocabulary",
  "An initial piece of a saved vocabulary always loads. The result has the first k terms with their old indices, possibly followed by a beginning of the next term as term number k. The other terms are gone. A term that equals this beginning gets the index k, so an index that was given out before can change its meaning; otherwise the kept terms keep their indices.",
  "every coherent vocabulary of stripped one-line terms and every place where the save can be interrupted", "every crash point of every vocabulary is quantified over",
  "soynlp/vectorizer/_vectorizer.py:BaseVectorizer.save", "soynlp/vectorizer/_vectorizer.py:BaseVectorizer.load")
P("C89", "An LRGraph shares a plain dict of plain dicts with its caller until it is reset, and nothing else",
  "LRGraph(lrgraph=d) keeps the object d itself when d is a plain dict of plain dicts: until the first reset_lrgraph not preceded by freeze, d and the graph's left view are one and the same, so that add/remove calls change, and empty, the caller's d; from that reset on, d stays as it was then. When d is another mapping of plain dicts only its rows are shared: d keeps its keys, and the row of a left part the graph has dropped is empty. When the rows are defaultdicts nothing is shared and no call changes d. In the other direction, whatever the caller writes to d (or to rows he took from it) never changes get_l or the stored origin, get_r of a graph that shares d answers from d as the caller left it, and reset_lrgraph (if not frozen, d non-empty) gives back exactly the graph as constructed, under every interleaving of calls and caller's writes. So the claims that the argument is left untouched and that get_r and get_l of one object always agree on a pair fail.",
  "all heaps and caller's dicts, all histories of calls, all interleavings of calls with arbitrary writes of the caller",
  "aliasing shows only in particular interleavings of calls and writes to the caller's own dict; tests construct a graph and forget the argument",
  UT + "LRGraph.__init__", UT + "LRGraph._check_lrgraph", UT + "LRGraph.reset_lrgraph", UT + "LRGraph.add_lr_pair", UT + "LRGraph.remove_lr_pair")
P("C90", "Progress messages change the outcome only when nothing was counted",
  "LRNounExtractor_v2, PredicatorExtractor, NewsPOSExtractor and ChatPOSExtractor print percentages unless verbose=False. With messages the result is the same as without, except that the call raises ZeroDivisionError when the base of a percentage is zero: for the noun extractor exactly when no word of admissible length reaches the minimal frequency (the silent extractor then returns no nouns); for the predicator extractor exactly when no word of at most 15 characters occurs at least twice and at least the minimal number of times, even if the caller hands over candidates; for train_extract of the part-of-speech extractors exactly when either of the two happens, so in particular on every corpus without repeated words, on which the silent extractor succeeds.",
  "every non-empty corpus, all options, every set of resource files, both part-of-speech extractors, every table of candidates of Hangul syllables", "tests run with one setting of verbose on corpora with repeated words",
  "soynlp/noun/_noun_ver2.py:LRNounExtractor_v2.extract", "soynlp/noun/_noun_ver2.py:LRNounExtractor_v2._check_covered_eojeols", "soynlp/predicator/_predicator.py:PredicatorExtractor._as_lemma_candidates", "soynlp/pos/_news_pos.py:NewsPOSExtractor._print_stats")
P("C91", "The file of a tagger dictionary: JSON, read back exactly, layout irrelevant",
  "Dictionary.save writes a JSON document; loading it into any Dictionary object restores the tags in their order, the words of every tag and max_length, whatever characters tags and words contain and whatever changes the dictionary went through. Dictionary.load accepts exactly the JSON documents that are an object with a max_length and an object pos_dict whose values are collections; white space, the order of keys, further keys and the kind of escapes do not matter, of equal keys the last counts. The value of a tag is turned into a set: of a list its members, of a string its single characters (so a word without brackets is not that word), of an object its keys. max_length is not checked against the words.",
  "every dictionary reachable by a history of changes, every order in which a set is listed, every file given to load", "tags and words are arbitrary strings (quotes, backslashes, control characters), and files written by other tools have unboundedly many layouts",
  "soynlp/postagger/_dictionary.py:Dictionary.save", "soynlp/postagger/_dictionary.py:Dictionary.load")
P("C92", "An interrupted save of a tagger dictionary is detected; what a failed load leaves",
  "If the process dies while Dictionary.save is writing, the file is an initial piece of the complete text, and every incomplete piece is rejected by load with ValueError, the loading dictionary staying exactly as it was: no truncated dictionary is ever accepted. A load that fails (ValueError exactly for files that are not JSON, else KeyError, TypeError or AttributeError) never changes the words; but if the file is JSON with a max_length, this new maximal length may already be in place.",
  "every dictionary with different tags and every place where writing can be interrupted; every file given to load", "every crash point of every dictionary is quantified over",
  "soynlp/postagger/_dictionary.py:Dictionary.save", "soynlp/postagger/_dictionary.py:Dictionary.load")
P("C93", "Predicator extractors and the sets and counters they share with their caller",
  "PredicatorExtractor keeps the caller's set of endings and, once trained on an EojeolCounter, the caller's counter; it copies nothing. Whatever a program does with several extractors: the table of a counter has exactly the entries that reached the minimum of every training on it and were never removed as covered; its reference sum is that of the last training, and its coverage is computed against that sum; a set of endings never loses a word, and only the caller and trainings of extractors that learn endings and were given this set add to it (also when the training raises later). Extraction changes none of the caller's objects and no other extractor, and afterwards the extractor has a set of endings of its own. Training and extraction give what the extractor would give on copies of its present sets and counter; operations that do not touch the objects an extractor holds do not change its results.",
  "all pools of extractors, sets and counters, all sequences of constructions, trainings, extractions, removals and updates, with exceptions", "effects through shared objects appear only in particular sequences of calls on different extractors",
  "soynlp/predicator/_predicator.py:PredicatorExtractor.__init__", "soynlp/predicator/_predicator.py:PredicatorExtractor.train", "soynlp/predicator/_predicator.py:PredicatorExtractor.extract", "soynlp/predicator/_predicator.py:PredicatorExtractor._train_with_eojeol_counter", UT + "EojeolCounter.remove_covered_eojeols")
P("C94", "The modes of SimpleTagger.tag",
  "flatten=True returns the concatenation of what flatten=False returns, in the same order, for every matcher, evaluator and postprocessor. With LRTemplateMatcher and LREvaluator, debug=True leaves the tags unchanged and adds, for every word of the sentence, all its candidates with their scores, ordered by begin position, then by score, then by order of generation; without a postprocessor every tagged word is one of the parts of a candidate shown. With EojeolTemplateMatcher debug=True raises AttributeError on every sentence that has a word, and works only on blank ones.",
  "all dictionaries, template sets, weights, preferences, postprocessors and sentences, all four modes", "the modes must agree on every sentence and dictionary; debug is not covered by any test",
  "soynlp/postagger/_tagger.py:SimpleTagger.tag")
P("C95", "Tagger dictionaries that hold the same dict",
  "Dictionary(pos_dict) keeps the caller's dict and puts a new set in the place of every value, even when the construction then fails with ValueError because there is no word; the collections that were there are never changed. From then on every add_words, remove_words and every change the caller makes to that dict shows in exactly the Dictionary objects that hold it and in no other: two Dictionary objects on the same dict answer word_is_tag and get_pos alike for ever, unless one of them loads a file (it then has a dict of its own), and operations on other dicts change nothing. max_length belongs to the single Dictionary: it is the longest word it had when it was made (or the number it loaded last) or was itself asked to add. So it need not bound the words of a shared dict, and LRTemplateMatcher overlooks a longer word added through another Dictionary (refuted: every known word is at most max_length long); a set handed to two Dictionary objects under a new tag is shared although their dicts differ (refuted: different dicts are independent).",
  "all histories of dict literals, constructions, add_words, remove_words and load calls and caller's changes, with any number of dicts and Dictionary objects; words given as strings", "effects through a shared dict appear only in particular sequences of calls on different objects; tests make one Dictionary and forget the argument",
  "soynlp/postagger/_dictionary.py:Dictionary.__init__", "soynlp/postagger/_dictionary.py:Dictionary.add_words", "soynlp/postagger/_dictionary.py:Dictionary.remove_words", "soynlp/postagger/_dictionary.py:Dictionary.load")
P("C96", "A save of EojeolPatternTrainer that did not finish",
  "A process that dies while a trained EojeolPatternTrainer is saving leaves an initial piece of the file. Every such piece is one of these: a piece of the first line (load stops with StopIteration when it is empty or the whole line without what follows, with ValueError otherwise); the first line and a piece of '# lrgraph' (StopIteration when that piece is empty, two empty graphs when it is complete, ValueError otherwise); or a number of complete rows and a piece of the next one. In the last case load reports ValueError when the piece of a heading has more than two characters and no bracket before its last character, or when the piece of a pair has more than four characters and fewer than two digits of its count; otherwise it gives exactly the pairs of the complete rows and, when at least two digits of the count of the next pair are there, that pair with the number formed by all of these digits but the last. So load of a piece never gives a pair that was not there and never a count that is zero or larger than the true one; the parameters are those of the saved trainer (but for verbose, which stays). Empty lines behind the first two lines make no difference in any file. It is refuted that an unfinished save is noticed: without its final newline the file of a trainer with a count of 12 loads, and the count is 1.",
  "all trainers, sentence lists and vocabularies on which training succeeds, every initial piece of the file, every loading trainer", "what load makes of a file depends on the character at which the writing stopped; a test looks at complete files",
  "soynlp/tokenizer/_tokenizer_builder.py:EojeolPatternTrainer.save", "soynlp/tokenizer/_tokenizer_builder.py:EojeolPatternTrainer.load")
P("C97", "A training of WordExtractor that fails part way",
  "train raises ValueError and changes nothing when the corpus says that its length is 0; otherwise it ends with the exception with which the corpus ends (a reading error, or AttributeError for something that is not a string) or normally. When it fails, the extractor has the counts of the sentences before the failure on top of what it had (with cumulate=False, on top of nothing); no minimum frequency is applied to them and neighbours seen once count in accessor_variety and branching_entropy; with pruning, the counts of a word may have lost a prefix of the corpus, as in a training that succeeds. The parameters stay. Training again with cumulate=False gives exactly what a new extractor gives; with cumulate=True (the default) the sentences before the failure are counted twice. Refuted: every word of words() has the minimum frequency; training again on the whole corpus after a failure gives the same as training once.",
  "all extractors that any history of constructions, trainings (successful or not), saves and loads can give; all corpora that fail at any place; all words", "the failure can come after every sentence and in every state; tests do not make corpora fail",
  "soynlp/word/_word.py:WordExtractor.train", "soynlp/word/_word.py:WordExtractor.frequency", "soynlp/word/_word.py:WordExtractor.accessor_variety")
P("C98", "save and load of WordExtractor",
  "save works for every extractor except those whose last training that looked at its corpus (and was followed by no load) failed after it had pruned, i.e. after a sentence of at least two words whose number is a multiple of num_for_pruning > 0; so when no training fails, everything can be saved. For the exceptions it raises AttributeError, and the file is destroyed: whatever happens before the next save to it, loading it fails and changes nothing. After a successful save, every extractor that loads the file, after whatever calls on whatever extractors that do not save to this file, has the state the saved extractor had at that moment in every attribute (parameters, thresholds, counts), and the other extractors do not change. From a file in which keys are missing load raises KeyError at the first missing key in its order and has by then taken over the attributes that come before it, keeping its own for the others. Refuted: what a file held survives a save that fails.",
  "all histories of constructions, trainings, saves and loads of several extractors and files; files with any set of keys missing", "whether pickle accepts the counters depends on how the last training went; tests save after a training that went well",
  "soynlp/word/_word.py:WordExtractor.save", "soynlp/word/_word.py:WordExtractor.load", "soynlp/word/_word.py:WordExtractor.train")
P("C99", "Tokenizers and the dicts they were made from",
  "LTokenizer, MaxScoreTokenizer and NounMatchTokenizer keep the caller's dict itself, unless it is empty when they are made: then they have an empty dict of their own for ever. NounLMatchTokenizer keeps its container in any case. MaxLRScoreTokenizer copies Dl and Dr, with what the builder returns and the preferred words, and keeps the preference dicts (unless empty). So at every moment of every history the answer to a sentence is a function of the current contents of the kept dicts (and, for MaxLRScoreTokenizer, of the contents of Dl, Dr and the preferences when it was made): tokenizing, other tokenizers and other dicts have no influence; tokenizers made by the same call at different moments agree for ever if the dict had entries both times; a MaxLRScoreTokenizer without preferences always answers the same. Only the constructor of MaxLRScoreTokenizer can fail, with ZeroDivisionError, exactly if a non-empty row of its graph sums to 0. That scores put into the dict later are used fails for a dict that was empty; that words added to the preferences later are recognised fails always.",
  "all histories of dict literals, item assignments and deletions, constructor calls of the five tokenizers with any arguments and sentences to tokenize", "what a tokenizer sees depends on the order of changes and constructions; tests never change a dict after handing it over",
  "soynlp/tokenizer/_tokenizer.py:LTokenizer.__init__", "soynlp/tokenizer/_tokenizer.py:MaxScoreTokenizer.__init__", "soynlp/tokenizer/_tokenizer.py:MaxLRScoreTokenizer.__init__", "soynlp/tokenizer/_noun_tokenizer.py:NounLMatchTokenizer.__init__", "soynlp/tokenizer/_noun_tokenizer.py:NounMatchTokenizer.__init__")
P("C100", "Calling a MaxLRScoreTokenizer",
  "Calling the tokenizer does not give what tokenize gives: it returns the rows built on the way (debug is on by default). It fails exactly when tokenize fails and with the same exception; otherwise the L and R parts of the rows of an eojeol, without the empty ones, are in order the words tokenize returns. The rows are in the order of their begin positions. Those with a total are, in order, the selected words: begin, middle, end and the three lengths are those of the L and R part in the eojeol. Those without a total have no R part, scores 0 and consistent lengths; but their begin is that of the whole text between the selected words, so the position of a second word of such a text is wrong.",
  "all dictionaries, preferences, thresholds and sentences", "the two entry points must agree for every input; tests of calls only look at printed output",
  "soynlp/tokenizer/_tokenizer.py:MaxLRScoreTokenizer.__call__", "soynlp/tokenizer/_tokenizer.py:MaxLRScoreTokenizer.tokenize", "soynlp/tokenizer/_tokenizer.py:MaxLRScoreTokenizer._base_tokenizing_subword")
P("C101","A noun extractor used again and again","An LRNounExtractor_v2 may be trained, asked (extract, predict, extract_domain_pos_features) and trained again in any order, on corpora that may also fail. What it answers depends only on its features and on the last training that succeeded: earlier trainings, trainings that raise (a corpus with no sentence, an iterator that raises, impossible lengths), predictions, extractions and extractions of features leave no trace, and two extractors with the same features and the same last training answer everything alike. The one exception is an extraction with reset_lrgraph=False, after which the extractor works on a part of the graph (no pair has more than its count) until the next training, extraction with reset or extraction of features. Before the first training that succeeds every question is an AttributeError; afterwards no extraction raises. What was learnt is exact: for a corpus none of whose eojeols the counter filters, the graph holds exactly the splits of the eojeols of the last training, each with the sum of the counts of its eojeols. The features change only by extract_domain_pos_features with append_extracted_features and min_noun_frequency at most 1: that threshold is compared with the scores, so that with the default nothing is ever found. Trainings do not add up, and answers do change after an extraction without reset (refuted).",
"every sequence of calls, every corpus (also one that raises part way), counters as EojeolCounter makes them, all thresholds and word lengths, all feature sets",
"a unit test runs one sequence of calls; the claim is about what any sequence leaves behind in an object that is edited in place by each extraction",
"soynlp/noun/_noun_ver2.py:LRNounExtractor_v2.train","soynlp/noun/_noun_ver2.py:LRNounExtractor_v2._train_with_sentences","soynlp/noun/_noun_ver2.py:LRNounExtractor_v2.extract","soynlp/noun/_noun_ver2.py:LRNounExtractor_v2.extract_domain_pos_features","soynlp/noun/_noun_ver2.py:LRNounExtractor_v2.predict","soynlp/utils/utils.py:LRGraph.reset_lrgraph")
P("C102","A first-version noun extractor used again and again","An LRNounExtractor (version 1) may be trained, asked and trained again in any order, on corpora that may fail in either of the two iterations that a training makes. What it answers depends on exactly two trainings: the last one whose corpus could be read twice (graph, words, scores: the vocabulary of the first iteration with the counts of the second), and the last one whose corpus could at least be read once, which gives the counts by which extract decides whether a noun holds together. Questions, corpora that are rejected and corpora whose first iteration raises leave no trace. A training is accepted exactly if its corpus has a positive length and can be read twice, otherwise the exception is the one of check_corpus or of the iteration. Before the first accepted training predict, is_noun and extract with candidates raise AttributeError and extract without candidates raises TypeError; afterwards none raises, and each gives exactly what the learnt pairs determine. train_extract is train followed by extract. A corpus that yields its sentences only once is accepted but teaches nothing. It is false that a training that raises changes nothing, and that trainings add up (refuted).",
"every sequence of calls, every corpus given by what each of its two iterations yields and how it ends, every normalization, coefficient table, limit, threshold and candidate list",
"a unit test runs one sequence of calls on one list; the claim is about what any sequence leaves behind, including iterations that fail half-way",
"soynlp/noun/_noun_ver1.py:LRNounExtractor.train","soynlp/noun/_noun_ver1.py:LRNounExtractor.train_extract","soynlp/noun/_noun_ver1.py:LRNounExtractor._scan_vocabulary","soynlp/noun/_noun_ver1.py:LRNounExtractor._build_lrgraph","soynlp/noun/_noun_ver1.py:LRNounExtractor.extract","soynlp/noun/_noun_ver1.py:LRNounExtractor.predict","soynlp/noun/_noun_ver1.py:LRNounExtractor._to_NounScore","soynlp/utils/utils.py:check_corpus")
P("C103","Vectorizers used again and again, sharing files","Several BaseVectorizers may fit, transform, write matrix files, save, load, encode and decode in any order, on documents whose iterations may fail, with files in common. A call changes at most the vocabulary of its own vectorizer and at most one file. A vectorizer learns exactly from the first reading of fit, fit_transform and fit_to_file, if that reading ends well and has a document (otherwise the exception of the reading, or UnboundLocalError, and nothing changes), or from a vocabulary file that exists; the last learning counts and nothing before it does. What is saved can be loaded later and by another vectorizer under either form of the name, which then answers every question as the saving one did, provided the terms have no blanks around them and no line breaks and no call in between writes that file. If the tokens are clean and nothing else is written under vocabulary names, terms and indices are in bijection in every state of every history, and decoding an encoding gives the known tokens. decode never raises in any history. Whenever terms and indices are in bijection, bags and matrices hold exactly the counts of the known tokens. fit_transform and fit_to_file are their two calls one after the other. to_file writes the header for its first reading and the rows for its second. It is false that fit_transform that raises changes nothing, that a matrix file has as many rows as its header says (iterators), that a to_file that raises keeps the old file, and that save and load are inverse for tokens with blanks (refuted).",
"every sequence of calls on any number of vectorizers, all tokenizers, parameters, documents, iterations that raise anywhere, file names and initial files",
"a unit test fits once on a list; the claim is about every order of calls, one-shot and failing iterations, and files shared between objects",
"soynlp/vectorizer/_vectorizer.py:BaseVectorizer.fit","soynlp/vectorizer/_vectorizer.py:BaseVectorizer.fit_transform","soynlp/vectorizer/_vectorizer.py:BaseVectorizer.transform","soynlp/vectorizer/_vectorizer.py:BaseVectorizer.fit_to_file","soynlp/vectorizer/_vectorizer.py:BaseVectorizer.to_file","soynlp/vectorizer/_vectorizer.py:BaseVectorizer.save","soynlp/vectorizer/_vectorizer.py:BaseVectorizer.load","soynlp/vectorizer/_vectorizer.py:BaseVectorizer.decode_from_list")
with open(os.path.join(os.path.dirname(__file__), "..", "properties.jsonl"), "w", encoding="utf-8") as f:
    for o in OUT: f.write(json.dumps(o, ensure_ascii=False) + "\n")

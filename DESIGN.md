# Formal model of lovit/soynlp in Rocq (Coq 8.16.1)

## Layout
* `rocq/theories/PyBase.v, PyDict.v, PySort.v, PyText.v, PyFile.v, PyRe.v`: the fragment of Python the code uses. Strings are lists of
  code points (`list N`), results that may be exceptions are `res` (`Ok v | Err e`), dicts are insertion-ordered association lists,
  `sorted` is a stable sort, `split`/`strip`/`\s+`, text files as strings with `\n`, one back-reference pattern.
* `rocq/theories/<Topic>Model.v`: the executable model, function by function, without proofs. Every definition cites the file and
  lines of /repo it models; simplifications are stated in the same comment.
* `rocq/theories/<Topic>Spec*.v`: small independent vocabulary in which the properties are stated (where one is needed).
* `rocq/theories/<Topic>Proofs*.v`: lemmas.
* `rocq/theories/<Topic>Props*.v`: the property theorems, each followed by `Print Assumptions`, with `Example`s showing concrete
  non-trivial data that meet the hypotheses.
* `tools/`: `props.py` (properties.jsonl), `manifest.py` (MANIFEST.json), `assumptions.py` (runs `Print Assumptions` for every theorem),
  `design.py` (this file), `mutate.py` (mutation testing, log in `seeded/LOG.jsonl`).

## Conventions
* Exceptions are values, and the theorems say for which inputs they occur. What an object looks like after a call that raised is modelled
  only where a property says so (C28, C47, C85, C86).
* A crash during a save leaves an initial piece of the characters that were to be written (C85-C88). A cut inside the UTF-8 bytes of one
  character (the next read raises UnicodeDecodeError) and the buffering of the operating system are not modelled.
* Python `float` is modelled by exact numbers: `Q` where only field operations and comparisons are used, `R` (standard library) for
  logarithms, powers and square roots. Hence rounding, overflow, NaN and ties produced by rounding are outside the model. Comparisons with
  decimal constants (0.3, 0.9, ...) use the exact decimal.
* Python `int` is `Z`; lengths are `nat` or `Z`.
* Python `set`s are duplicate-tolerant lists used through membership; where iteration order of a set could matter, either the theorem
  quantifies over the order or the result is shown not to depend on it.
* JSON (`Dictionary.save/load`) is modelled at the level of the text: strings, escapes, numerals, nesting. Limits on nesting depth and on the digits of an
  integer, and lone surrogates (which cannot be encoded), are not.
* Regular-expression classes that need Unicode tables (`\w`, `\d`) are universally quantified predicates.
* Normalising functions passed to trainers are universally quantified functions on strings.
* A naive claim that the code violates is proved false as `..._refuted` with a concrete witness, next to the exact statement that holds.

## Trusted base
1. Coq's kernel (8.16.1), including `vm_compute`, which is used for finite computations (`native_compute` is not used).
2. The reading of /repo into the `*Model.v` files (no code was run, there is no extraction).
3. The axioms below, all of the standard library. No axioms of our own, no `Admitted`, no disabled checks, no functors or module types.

`Print Assumptions` says "Closed under the global context" for 409 theorems of MANIFEST.json. The other 78 use the standard library's
construction of the reals:

* `C101_answers`: ClassicalDedekindReals.sig_forall_dec, ClassicalDedekindReals.sig_not_dec, Classical_Prop.classic, FunctionalExtensionality.functional_extensionality_dep
* `C101_domain_nothing`: ClassicalDedekindReals.sig_forall_dec, ClassicalDedekindReals.sig_not_dec, Classical_Prop.classic, FunctionalExtensionality.functional_extensionality_dep
* `C101_extraction_without_reset_leaves_answers_refuted`: ClassicalDedekindReals.sig_forall_dec, ClassicalDedekindReals.sig_not_dec, Classical_Prop.classic, FunctionalExtensionality.functional_extensionality_dep
* `C101_features`: ClassicalDedekindReals.sig_forall_dec, ClassicalDedekindReals.sig_not_dec, Classical_Prop.classic, FunctionalExtensionality.functional_extensionality_dep
* `C101_forgets`: ClassicalDedekindReals.sig_forall_dec, ClassicalDedekindReals.sig_not_dec, Classical_Prop.classic, FunctionalExtensionality.functional_extensionality_dep
* `C101_learnt`: ClassicalDedekindReals.sig_forall_dec, ClassicalDedekindReals.sig_not_dec, Classical_Prop.classic, FunctionalExtensionality.functional_extensionality_dep
* `C101_same_answers`: ClassicalDedekindReals.sig_forall_dec, ClassicalDedekindReals.sig_not_dec, Classical_Prop.classic, FunctionalExtensionality.functional_extensionality_dep
* `C101_trainings_add_up_refuted`: ClassicalDedekindReals.sig_forall_dec, ClassicalDedekindReals.sig_not_dec, Classical_Prop.classic, FunctionalExtensionality.functional_extensionality_dep
* `C101_unsettled`: ClassicalDedekindReals.sig_forall_dec, ClassicalDedekindReals.sig_not_dec, Classical_Prop.classic, FunctionalExtensionality.functional_extensionality_dep
* `C102_add_up_refuted`: ClassicalDedekindReals.sig_forall_dec, ClassicalDedekindReals.sig_not_dec, Classical_Prop.classic, FunctionalExtensionality.functional_extensionality_dep
* `C102_answers`: ClassicalDedekindReals.sig_forall_dec, ClassicalDedekindReals.sig_not_dec, Classical_Prop.classic, FunctionalExtensionality.functional_extensionality_dep
* `C102_failed_training_refuted`: ClassicalDedekindReals.sig_forall_dec, ClassicalDedekindReals.sig_not_dec, Classical_Prop.classic, FunctionalExtensionality.functional_extensionality_dep
* `C102_forgets`: ClassicalDedekindReals.sig_forall_dec, ClassicalDedekindReals.sig_not_dec, Classical_Prop.classic, FunctionalExtensionality.functional_extensionality_dep
* `C102_no_trace`: ClassicalDedekindReals.sig_forall_dec, ClassicalDedekindReals.sig_not_dec, Classical_Prop.classic, FunctionalExtensionality.functional_extensionality_dep
* `C102_one_shot`: ClassicalDedekindReals.sig_forall_dec, ClassicalDedekindReals.sig_not_dec, Classical_Prop.classic, FunctionalExtensionality.functional_extensionality_dep
* `C102_train_extract`: ClassicalDedekindReals.sig_forall_dec, ClassicalDedekindReals.sig_not_dec, Classical_Prop.classic, FunctionalExtensionality.functional_extensionality_dep
* `C102_trains`: ClassicalDedekindReals.sig_forall_dec, ClassicalDedekindReals.sig_not_dec, Classical_Prop.classic, FunctionalExtensionality.functional_extensionality_dep
* `C102_untrained`: ClassicalDedekindReals.sig_forall_dec, ClassicalDedekindReals.sig_not_dec, Classical_Prop.classic, FunctionalExtensionality.functional_extensionality_dep
* `C11_cosine_exact`: ClassicalDedekindReals.sig_forall_dec, ClassicalDedekindReals.sig_not_dec, FunctionalExtensionality.functional_extensionality_dep
* `C11_cosine_properties`: ClassicalDedekindReals.sig_forall_dec, ClassicalDedekindReals.sig_not_dec, FunctionalExtensionality.functional_extensionality_dep
* `C11_empty_string`: ClassicalDedekindReals.sig_forall_dec, ClassicalDedekindReals.sig_not_dec, FunctionalExtensionality.functional_extensionality_dep
* `C39_cohesion_in_unit_interval`: ClassicalDedekindReals.sig_forall_dec, ClassicalDedekindReals.sig_not_dec, Classical_Prop.classic, FunctionalExtensionality.functional_extensionality_dep
* `C39_cohesion_value`: ClassicalDedekindReals.sig_forall_dec, ClassicalDedekindReals.sig_not_dec, Classical_Prop.classic, FunctionalExtensionality.functional_extensionality_dep
* `C40_accessor_variety_after_training`: ClassicalDedekindReals.sig_forall_dec, ClassicalDedekindReals.sig_not_dec, Classical_Prop.classic, FunctionalExtensionality.functional_extensionality_dep
* `C40_all_words_agree`: ClassicalDedekindReals.sig_forall_dec, ClassicalDedekindReals.sig_not_dec, Classical_Prop.classic, FunctionalExtensionality.functional_extensionality_dep
* `C40_entropy_bounds`: ClassicalDedekindReals.sig_forall_dec, ClassicalDedekindReals.sig_not_dec, Classical_Prop.classic, FunctionalExtensionality.functional_extensionality_dep
* `C41_word_scores`: ClassicalDedekindReals.sig_forall_dec, ClassicalDedekindReals.sig_not_dec, Classical_Prop.classic, FunctionalExtensionality.functional_extensionality_dep
* `C42_pmi_selection`: ClassicalDedekindReals.sig_forall_dec, ClassicalDedekindReals.sig_not_dec, Classical_Prop.classic, FunctionalExtensionality.functional_extensionality_dep
* `C62_marginals`: ClassicalDedekindReals.sig_forall_dec, ClassicalDedekindReals.sig_not_dec, Classical_Prop.classic, FunctionalExtensionality.functional_extensionality_dep
* `C62_memory_friendly_refuted`: ClassicalDedekindReals.sig_forall_dec, ClassicalDedekindReals.sig_not_dec, Classical_Prop.classic, FunctionalExtensionality.functional_extensionality_dep
* `C62_symmetric`: ClassicalDedekindReals.sig_forall_dec, ClassicalDedekindReals.sig_not_dec, Classical_Prop.classic, FunctionalExtensionality.functional_extensionality_dep
* `C62_threshold`: ClassicalDedekindReals.sig_forall_dec, ClassicalDedekindReals.sig_not_dec, Classical_Prop.classic, FunctionalExtensionality.functional_extensionality_dep
* `C62_values`: ClassicalDedekindReals.sig_forall_dec, ClassicalDedekindReals.sig_not_dec, Classical_Prop.classic, FunctionalExtensionality.functional_extensionality_dep
* `C66_compound_frequency_refuted`: ClassicalDedekindReals.sig_forall_dec, ClassicalDedekindReals.sig_not_dec, Classical_Prop.classic, FunctionalExtensionality.functional_extensionality_dep
* `C66_extract`: ClassicalDedekindReals.sig_forall_dec, ClassicalDedekindReals.sig_not_dec, Classical_Prop.classic, FunctionalExtensionality.functional_extensionality_dep
* `C66_pos_feature_option`: ClassicalDedekindReals.sig_forall_dec, ClassicalDedekindReals.sig_not_dec, Classical_Prop.classic, FunctionalExtensionality.functional_extensionality_dep
* `C66_repeatable`: ClassicalDedekindReals.sig_forall_dec, ClassicalDedekindReals.sig_not_dec, Classical_Prop.classic, FunctionalExtensionality.functional_extensionality_dep
* `C66_repeatable_without_reset_refuted`: ClassicalDedekindReals.sig_forall_dec, ClassicalDedekindReals.sig_not_dec, Classical_Prop.classic, FunctionalExtensionality.functional_extensionality_dep
* `C69_bounds`: ClassicalDedekindReals.sig_forall_dec, ClassicalDedekindReals.sig_not_dec, Classical_Prop.classic, FunctionalExtensionality.functional_extensionality_dep
* `C69_extract`: ClassicalDedekindReals.sig_forall_dec, ClassicalDedekindReals.sig_not_dec, Classical_Prop.classic, FunctionalExtensionality.functional_extensionality_dep
* `C69_frequency_first_refuted`: ClassicalDedekindReals.sig_forall_dec, ClassicalDedekindReals.sig_not_dec, Classical_Prop.classic, FunctionalExtensionality.functional_extensionality_dep
* `C69_known_endings_refuted`: ClassicalDedekindReals.sig_forall_dec, ClassicalDedekindReals.sig_not_dec, Classical_Prop.classic, FunctionalExtensionality.functional_extensionality_dep
* `C69_predict_exact`: ClassicalDedekindReals.sig_forall_dec, ClassicalDedekindReals.sig_not_dec, Classical_Prop.classic, FunctionalExtensionality.functional_extensionality_dep
* `C69_roles`: ClassicalDedekindReals.sig_forall_dec
* `C70_bounds`: ClassicalDedekindReals.sig_forall_dec, ClassicalDedekindReals.sig_not_dec, Classical_Prop.classic, FunctionalExtensionality.functional_extensionality_dep
* `C70_exact`: ClassicalDedekindReals.sig_forall_dec, ClassicalDedekindReals.sig_not_dec, Classical_Prop.classic, FunctionalExtensionality.functional_extensionality_dep
* `C70_noun_josa_refuted`: ClassicalDedekindReals.sig_forall_dec, ClassicalDedekindReals.sig_not_dec, Classical_Prop.classic, FunctionalExtensionality.functional_extensionality_dep
* `C70_order`: ClassicalDedekindReals.sig_forall_dec, ClassicalDedekindReals.sig_not_dec, Classical_Prop.classic, FunctionalExtensionality.functional_extensionality_dep
* `C70_unique`: ClassicalDedekindReals.sig_forall_dec, ClassicalDedekindReals.sig_not_dec, Classical_Prop.classic, FunctionalExtensionality.functional_extensionality_dep
* `C72_learn`: ClassicalDedekindReals.sig_forall_dec, ClassicalDedekindReals.sig_not_dec, Classical_Prop.classic, FunctionalExtensionality.functional_extensionality_dep
* `C74_compound_refuted`: ClassicalDedekindReals.sig_forall_dec, ClassicalDedekindReals.sig_not_dec, Classical_Prop.classic, FunctionalExtensionality.functional_extensionality_dep
* `C74_extract`: ClassicalDedekindReals.sig_forall_dec, ClassicalDedekindReals.sig_not_dec, Classical_Prop.classic, FunctionalExtensionality.functional_extensionality_dep
* `C74_frequency_refuted`: ClassicalDedekindReals.sig_forall_dec, ClassicalDedekindReals.sig_not_dec, Classical_Prop.classic, FunctionalExtensionality.functional_extensionality_dep
* `C84_counts`: ClassicalDedekindReals.sig_forall_dec, ClassicalDedekindReals.sig_not_dec, Classical_Prop.classic, FunctionalExtensionality.functional_extensionality_dep
* `C84_ensure_normalized_refuted`: ClassicalDedekindReals.sig_forall_dec, ClassicalDedekindReals.sig_not_dec, Classical_Prop.classic, FunctionalExtensionality.functional_extensionality_dep
* `C84_noun_count_refuted`: ClassicalDedekindReals.sig_forall_dec, ClassicalDedekindReals.sig_not_dec, Classical_Prop.classic, FunctionalExtensionality.functional_extensionality_dep
* `C84_predicators`: ClassicalDedekindReals.sig_forall_dec, ClassicalDedekindReals.sig_not_dec, Classical_Prop.classic, FunctionalExtensionality.functional_extensionality_dep
* `C84_train`: ClassicalDedekindReals.sig_forall_dec, ClassicalDedekindReals.sig_not_dec, Classical_Prop.classic, FunctionalExtensionality.functional_extensionality_dep
* `C84_train_extract`: ClassicalDedekindReals.sig_forall_dec, ClassicalDedekindReals.sig_not_dec, Classical_Prop.classic, FunctionalExtensionality.functional_extensionality_dep
* `C84_trained`: ClassicalDedekindReals.sig_forall_dec, ClassicalDedekindReals.sig_not_dec, Classical_Prop.classic, FunctionalExtensionality.functional_extensionality_dep
* `C90_messages_only_refuted`: ClassicalDedekindReals.sig_forall_dec, ClassicalDedekindReals.sig_not_dec, Classical_Prop.classic, FunctionalExtensionality.functional_extensionality_dep
* `C90_nouns`: ClassicalDedekindReals.sig_forall_dec, ClassicalDedekindReals.sig_not_dec, Classical_Prop.classic, FunctionalExtensionality.functional_extensionality_dep
* `C90_pos`: ClassicalDedekindReals.sig_forall_dec, ClassicalDedekindReals.sig_not_dec, Classical_Prop.classic, FunctionalExtensionality.functional_extensionality_dep
* `C93_after_extract_refuted`: ClassicalDedekindReals.sig_forall_dec, ClassicalDedekindReals.sig_not_dec, Classical_Prop.classic, FunctionalExtensionality.functional_extensionality_dep
* `C93_counter_sum`: ClassicalDedekindReals.sig_forall_dec, ClassicalDedekindReals.sig_not_dec, Classical_Prop.classic, FunctionalExtensionality.functional_extensionality_dep
* `C93_counter_table`: ClassicalDedekindReals.sig_forall_dec, ClassicalDedekindReals.sig_not_dec, Classical_Prop.classic, FunctionalExtensionality.functional_extensionality_dep
* `C93_coverage`: ClassicalDedekindReals.sig_forall_dec, ClassicalDedekindReals.sig_not_dec, Classical_Prop.classic, FunctionalExtensionality.functional_extensionality_dep
* `C93_coverage_falls_refuted`: ClassicalDedekindReals.sig_forall_dec, ClassicalDedekindReals.sig_not_dec, Classical_Prop.classic, FunctionalExtensionality.functional_extensionality_dep
* `C93_extract`: ClassicalDedekindReals.sig_forall_dec, ClassicalDedekindReals.sig_not_dec, Classical_Prop.classic, FunctionalExtensionality.functional_extensionality_dep
* `C93_foreign`: ClassicalDedekindReals.sig_forall_dec, ClassicalDedekindReals.sig_not_dec, Classical_Prop.classic, FunctionalExtensionality.functional_extensionality_dep
* `C93_new`: ClassicalDedekindReals.sig_forall_dec, ClassicalDedekindReals.sig_not_dec, Classical_Prop.classic, FunctionalExtensionality.functional_extensionality_dep
* `C93_sets`: ClassicalDedekindReals.sig_forall_dec, ClassicalDedekindReals.sig_not_dec, Classical_Prop.classic, FunctionalExtensionality.functional_extensionality_dep
* `C93_sets_grow`: ClassicalDedekindReals.sig_forall_dec, ClassicalDedekindReals.sig_not_dec, Classical_Prop.classic, FunctionalExtensionality.functional_extensionality_dep
* `C93_shared_counter_refuted`: ClassicalDedekindReals.sig_forall_dec, ClassicalDedekindReals.sig_not_dec, Classical_Prop.classic, FunctionalExtensionality.functional_extensionality_dep
* `C93_shared_set_refuted`: ClassicalDedekindReals.sig_forall_dec, ClassicalDedekindReals.sig_not_dec, Classical_Prop.classic, FunctionalExtensionality.functional_extensionality_dep
* `C93_train`: ClassicalDedekindReals.sig_forall_dec, ClassicalDedekindReals.sig_not_dec, Classical_Prop.classic, FunctionalExtensionality.functional_extensionality_dep
* `C93_train_sum`: ClassicalDedekindReals.sig_forall_dec, ClassicalDedekindReals.sig_not_dec, Classical_Prop.classic, FunctionalExtensionality.functional_extensionality_dep
* `C97_failed_neighbours`: ClassicalDedekindReals.sig_forall_dec, ClassicalDedekindReals.sig_not_dec, Classical_Prop.classic, FunctionalExtensionality.functional_extensionality_dep

## What is modelled
hangle (`_hangle.py`, `_distance.py`), normalizer, tokenizer (`_tokenizer.py`, `_normalizer.py`, `_noun_tokenizer.py`, `_tokenizer_builder.py`),
utils (`utils.py`), word (`_word.py`, `_phrase.py`, `_pmi.py`), vectorizer (`_vectorizer.py`, `_word_context.py`), postagger (`_dictionary.py`, `_template.py`,
`_evaluator.py`, `_tagger.py`, `_pos_extractor.py`), noun (`_noun_ver1.py`, `_noun_ver2.py`, `_noun_news.py`, `_noun_postprocessing.py`, `_josa.py`),
lemmatizer, predicator (`_eomi.py`, `_stem.py`, `_adjective_vs_verb.py`, `_predicator.py`), pos (`_adverb.py`, `_news_pos.py`, `_chat_pos.py`).

## What is not modelled
* Progress and memory messages, log files, warnings. The arithmetic inside the messages that can fail is modelled: `VerboseModel.v` and
  `EojeolPatternTrainer`. The other models are those of silent runs; the remaining messages divide by the length of a list they are iterating over.
* Operating-system errors while reading or writing files; encodings other than the text itself; pickles.
* numpy/scipy/sklearn internals: sparse matrices are coordinate lists, `argsort` any sort, `svd` (`utils/math.py`) is not modelled; `pairwise_distances` is an arbitrary
  function.
* Aliasing of mutable arguments: outside `AliasModel.v`, `ShareModel.v`, `TagShareModel.v` and `TokShareModel.v`, a dict, set or EojeolCounter the caller goes on changing after handing it over (or that
  the library changes in place for the caller) is a value in the model. `AliasModel.v` models `LRGraph` with explicit references (the dict handed
  to the constructor, the saved origin, the inner dictionaries), and C89 relates it to the value model used everywhere else. `ShareModel.v` models the sets and counters predicator extractors share (C93),
  `TagShareModel.v` the dict several tagger dictionaries hold (C95), `TokShareModel.v` the dicts tokenizers hold (C99; there a tokenizer builder returns new dicts).
* `parse_int` is Python's `int()` of a text (blanks, signs, underscores, digits of all scripts of Unicode 14) without the limit of 4300 digits; `float()` of a text is a parameter of the
  models that use it (`NewsModel.v`, `NounV1Model.v`).
* Dead or unimplemented code: `postagger/_lrtagger.py`, `postagger/_maxscore.py`, `ner/_rules.py` (raises only), demo scripts.

## Properties
### C01 compose and decompose are mutually inverse on Hangul syllables
*Modelled:* HangleModel (of soynlp/hangle/_hangle.py). *Proof:* linear arithmetic on the code space (div/mod of a code point minus 0xAC00) plus computation over the three finite jamo inventories. *Theorems* (HangleProps, proved): C01_compose_decompose, C01_decompose_compose, C01_compose_unicode_order. *Axioms:* none.

### C02 decompose is total and classifies every character
*Modelled:* HangleModel (of soynlp/hangle/_hangle.py). *Proof:* case analysis on the code ranges; injectivity from C01. *Theorems* (HangleProps, proved): C02_decompose_total, C02_decompose_injective. *Axioms:* none.

### C03 compose rejects exactly the triples that are not jamo inventory members
*Modelled:* HangleModel (of soynlp/hangle/_hangle.py). *Proof:* inventory membership decided by the position function; iff. *Theorems* (HangleProps, proved): C03_compose_error_iff. *Axioms:* none.

### C04 character class predicates are consistent
*Modelled:* HangleModel (of soynlp/hangle/_hangle.py). *Proof:* interval arithmetic on the code ranges. *Theorems* (HangleProps, proved): C04_character_classes. *Axioms:* none.

### C05 ConvolutionHangleEncoder decodes what it encodes
*Modelled:* HangleModel (of soynlp/hangle/_hangle.py). *Proof:* induction over the cleaned sentence, one entry at a time, from C01/C02. *Theorems* (HangleProps, proved): C05_encoder_roundtrip, C05_clean_text_unchanged. *Axioms:* none.

### C06 encoder output is a well-formed one-hot layout
*Modelled:* HangleModel (of soynlp/hangle/_hangle.py). *Proof:* induction over the sentence; index ranges of each block by arithmetic. *Theorems* (HangleProps, proved): C06_onehot_layout, C06_encode_matrix, C06_onehot_exact. *Axioms:* none.

### C07 onehot_to_sent validates indices exactly
*Modelled:* HangleModel (of soynlp/hangle/_hangle.py). *Proof:* induction over the encoded list, exact exception condition. *Theorems* (HangleProps, proved): C07_invalid_iff_ValueError, C07_decode_exact. *Axioms:* none.

### C08 levenshtein with default cost is the edit distance and a metric
*Modelled:* DistanceModel, DistanceSpec (of soynlp/hangle/_distance.py). *Proof:* row-by-row dynamic programme proved equal to a recursive minimum, then to the least cost over an inductive alignment relation; metric laws from composing alignments. *Theorems* (DistanceProps, proved): C08_levenshtein_is_edit_distance, C08_levenshtein_metric. *Axioms:* none.

### C09 levenshtein with a custom cost table
*Modelled:* DistanceModel, DistanceSpec (of soynlp/hangle/_distance.py). *Proof:* the same generic programme over an arbitrary non-negative cost function; the swapped call is a refutation. *Theorems* (DistanceProps, proved): C09_custom_cost_when_first_is_longer, C09_cost_ignored_when_first_is_shorter, C09_cost_always_honoured_refuted. *Axioms:* none.

### C10 jamo_levenshtein is a bounded, symmetric refinement
*Modelled:* DistanceModel, DistanceSpec (of soynlp/hangle/_distance.py). *Proof:* instance of the generic theorem with costs in Q; triangle inequality of the substitution cost by decomposition. *Theorems* (DistanceProps, proved): C10_jamo_least_alignment, C10_jamo_metric. *Axioms:* none.

### C11 jaccard_distance and cosine_distance ranges and symmetry
*Modelled:* DistanceModel (of soynlp/hangle/_distance.py). *Proof:* set algebra over Q; Cauchy-Schwarz over R. *Theorems* (DistanceProps, proved): C11_jaccard_exact, C11_jaccard_properties, C11_cosine_exact, C11_cosine_properties, C11_empty_string. *Axioms:* functional_extensionality_dep, sig_forall_dec, sig_not_dec.

### C12 only_hangle, only_hangle_number and only_text keep exactly the maximal runs of kept characters
*Modelled:* NormalizerModel, NormalizerSpec (of soynlp/normalizer/_normalizer.py). *Proof:* regular-expression substitution = runs specification, induction over the text. *Theorems* (NormalizerProps, proved): C12_only_hangle, C12_only_hangle_number, C12_only_text, C12_facts. *Axioms:* none.

### C13 normalize keeps exactly the character classes enabled by its flags
*Modelled:* NormalizerModel, NormalizerSpec (of soynlp/normalizer/_normalizer.py). *Proof:* as C12 for every combination of flags, class tables as predicates. *Theorems* (NormalizerProps, proved): C13_normalize_keeps_enabled_classes, C13_normalize_remove_repeat, C13_normalize_idempotent, C13_only_hangul_by_default_refuted, C13_hyphen_never_kept. *Axioms:* none.

### C14 repeat_normalize shortens exactly the runs of three or more word characters
*Modelled:* NormalizerModel, PyRe, PyReProofs (of soynlp/normalizer/_normalizer.py). *Proof:* a small backtracking matcher for the one back-reference pattern; runs specification by strong induction. *Theorems* (NormalizerProps, proved): C14_every_string_has_runs, C14_repeat_normalize_exact, C14_nonpositive_only_whitespace, C14_idempotent, C14_no_long_run_remains. *Axioms:* none.

### C15 emoticon_normalize is total and acts locally
*Modelled:* NormalizerModel (of soynlp/normalizer/_normalizer.py). *Proof:* induction over the character window; locality as an explicit three-character function. *Theorems* (NormalizerProps, proved): C15_emoticon_exact, C15_emoticon_rule_is_a_function, C15_without_lone_consonants_only_repeats, C15_no_syllable_lost_refuted. *Axioms:* none.

### C16 remain_hangle_on_last and normalize_sent_for_lrgraph produce eojeols ending in Hangul
*Modelled:* NormalizerModel (of soynlp/normalizer/_normalizer.py). *Proof:* longest-prefix specification by induction from the right; idempotence from the characterisation. *Theorems* (NormalizerProps, proved): C16_remain_hangle_on_last, C16_lrgraph_sentence_exact, C16_lrgraph_sentence_facts. *Axioms:* none.

### C17 tokenizer.normalize never fails and keeps the eojeol structure
*Modelled:* NormalizerModel, PyRe (of soynlp/tokenizer/_normalizer.py). *Proof:* induction over eojeols. *Theorems* (NormalizerProps, proved): C17_tokenizer_normalize_exact, C17_unchanged_without_jamo_and_repeats. *Axioms:* none.

### C18 RegexTokenizer only inserts boundaries
*Modelled:* TokenizerModel, TokenizerSpec (of soynlp/tokenizer/_tokenizer.py). *Proof:* findall of each class pattern as a run scan; refinement of tilings pass by pass. *Theorems* (TokenizerProps, proved): C18_text_preserved, C18_hangul_runs. *Axioms:* none.

### C19 LTokenizer picks the best-scoring left part
*Modelled:* TokenizerModel (of soynlp/tokenizer/_tokenizer.py). *Proof:* stable sort + maximality. *Theorems* (TokenizerProps, proved): C19_best_left, C19_sentence. *Axioms:* none.

### C20 MaxScoreTokenizer tiles every eojeol
*Modelled:* TokenizerModel, TokenizerSpec (of soynlp/tokenizer/_tokenizer.py). *Proof:* tiling invariant of the selection loop with fuel shown sufficient. *Theorems* (TokenizerProps, proved): C20_tiles, C20_text_preserved, C20_small_max_length. *Axioms:* none.

### C21 MaxScoreTokenizer selects greedily by score, then length, then position
*Modelled:* TokenizerModel (of soynlp/tokenizer/_tokenizer.py). *Proof:* greedy selection proved equal to "repeatedly take the best compatible candidate" by induction over the sorted candidates. *Theorems* (TokenizerProps, proved): C21_greedy, C21_greedy_unique, C21_any_length_refuted. *Axioms:* none.

### C22 scores reported by MaxScoreTokenizer
*Modelled:* TokenizerModel (of soynlp/tokenizer/_tokenizer.py). *Proof:* invariant on tokens. *Theorems* (TokenizerProps, proved): C22_scores, C22_short, C22_table_score_refuted. *Axioms:* none.

### C23 MaxLRScoreTokenizer candidate and selection soundness
*Modelled:* TokenizerModel (of soynlp/tokenizer/_tokenizer.py). *Proof:* non-overlap invariant of the L-R selection loop. *Theorems* (TokenizerProps, proved): C23_selection, C23_text, C23_text_preserved_without_R, C23_total_and_preserving_refuted. *Axioms:* none.

### C24 NounLMatchTokenizer takes the greedy longest noun prefix chain
*Modelled:* TokenizerModel (of soynlp/tokenizer/_noun_tokenizer.py). *Proof:* greedy-chain specification by induction on the remaining text. *Theorems* (TokenizerProps, proved): C24_greedy_chain, C24_chain_unique. *Axioms:* none.

### C25 NounMatchTokenizer returns nouns with positive score
*Modelled:* TokenizerModel (of soynlp/tokenizer/_noun_tokenizer.py). *Proof:* from C20 and the filters. *Theorems* (TokenizerProps, proved): C25_nouns, C25_exact, C25_composed, C25_short_dropped, C25_composed_scores_refuted. *Axioms:* none.

### C26 LRGraph keeps its two indexes consistent
*Modelled:* UtilsModel, UtilsSpec (of soynlp/utils/utils.py). *Proof:* invariant over an arbitrary list of operations. *Theorems* (UtilsProps, proved): C26_indexes_agree, C26_counts_positive, C26_no_empty_tables. *Axioms:* none.

### C27 LRGraph removal subtracts and never underflows
*Modelled:* UtilsModel, UtilsSpec (of soynlp/utils/utils.py). *Proof:* extensional description of both indexes after the operation; induction over the splits. *Theorems* (UtilsProps, proved): C27_remove_pair, C27_remove_eojeol, C27_add_then_remove. *Axioms:* none.

### C28 LRGraph addition needs an existing pair
*Modelled:* UtilsModel, UtilsSpec (of soynlp/utils/utils.py). *Proof:* exact exception condition, including the half-done state. *Theorems* (UtilsProps, proved): C28_add_pair, C28_add_eojeol. *Axioms:* none.

### C29 LRGraph reset restores the original and freeze forbids it
*Modelled:* UtilsModel, UtilsSpec (of soynlp/utils/utils.py). *Proof:* invariant over operation sequences (the original table never changes). *Theorems* (UtilsProps, proved): C29_reset_restores, C29_frozen_not_reset, C29_copy_original. *Axioms:* none.

### C30 get_r and get_l return the top neighbours by count
*Modelled:* UtilsModel (of soynlp/utils/utils.py). *Proof:* stable sort lemmas. *Theorems* (UtilsProps, proved): C30_ranking, C30_stable. *Axioms:* none.

### C31 EojeolCounter to LRGraph and back
*Modelled:* UtilsModel, UtilsSpec (of soynlp/utils/utils.py). *Proof:* fold over all cuts; uniqueness of the cut of a flattened eojeol. *Theorems* (UtilsProps, UtilsProps2, proved): C31_to_lrgraph_exact, C31_back_to_counter, C31_ignore_one_syllable_ignored, C31_counter_of_current_graph, C31_counter_of_original_graph. *Axioms:* none.

### C32 LRGraph save and load round-trip
*Modelled:* UtilsModel, PyFile (of soynlp/utils/utils.py). *Proof:* files as text; parse of the printed lines by induction. *Theorems* (UtilsProps, proved): C32_save_load. *Axioms:* none.

### C33 EojeolCounter counts eojeols
*Modelled:* UtilsModel (of soynlp/utils/utils.py). *Proof:* counting homomorphism; with periodic filtering an invariant relating the counter to a suffix of the corpus. *Theorems* (UtilsProps, proved): C33_exact_without_filtering, C33_filtered_counts_a_suffix, C33_filtered_exact_when_frequent, C33_empty_corpus, C33_filtered_exactness_refuted. *Axioms:* none.

### C34 coverage is the removed share of the corpus
*Modelled:* UtilsModel (of soynlp/utils/utils.py). *Proof:* invariant over a sequence of removals, Q arithmetic. *Theorems* (UtilsProps, UtilsProps2, proved): C34_coverage, C34_zero_total, C34_uncovered. *Axioms:* none.

### C35 EojeolCounter save and load round-trip
*Modelled:* UtilsModel, PyFile (of soynlp/utils/utils.py). *Proof:* files as text; permutation of the sorted items. *Theorems* (UtilsProps, proved): C35_save_load, C35_file_order. *Axioms:* none.

### C36 DoublespaceLineCorpus length agrees with iteration
*Modelled:* UtilsModel, PyFile (of soynlp/utils/utils.py). *Proof:* iteration as a function of the file text, induction over lines. *Theorems* (UtilsProps, proved): C36_unlimited, C36_limited, C36_sentences_clean, C36_length_agrees, C36_length_agrees_refuted, C36_header_only. *Axioms:* none.

### C37 most_similar excludes the query and is sorted
*Modelled:* UtilsModel (of soynlp/utils/utils.py). *Proof:* stable sort over abstract distances (numpy argsort as any sort). *Theorems* (UtilsProps, proved): C37_unknown_query, C37_most_similar. *Axioms:* none.

### C38 WordExtractor counts eojeol prefixes and suffixes exactly
*Modelled:* WordModel, WordSpec (of soynlp/word/_word.py). *Proof:* counting homomorphism over sentences and cuts; additivity for cumulate. *Theorems* (WordProps, proved): C38_train_exact, C38_sentence_order_irrelevant, C38_pruning_forgets_a_prefix, C38_batches_equal_one_corpus_refuted, C38_raises_iff_empty. *Axioms:* none.

### C39 cohesion scores are defined and within [0,1]
*Modelled:* WordModel (of soynlp/word/_word.py). *Proof:* invariant over training histories; powers in R. *Theorems* (WordProps, proved): C39_prefix_suffix_monotone, C39_cohesion_in_unit_interval, C39_cohesion_value. *Axioms:* classic, functional_extensionality_dep, sig_forall_dec, sig_not_dec.

### C40 branching entropy and accessor variety
*Modelled:* WordModel, WordSpec (of soynlp/word/_word.py). *Proof:* exact count tables; entropy in R with bounds by concavity (ln x <= x - 1). *Theorems* (WordProps, proved): C40_accessor_variety_after_training, C40_entropy_bounds, C40_all_words_agree, C40_all_words_agree_everywhere_refuted. *Axioms:* classic, functional_extensionality_dep, sig_forall_dec, sig_not_dec.

### C41 extract applies every threshold and nothing else
*Modelled:* WordModel, WordSpec (of soynlp/word/_word.py). *Proof:* filter specification, independence from the order of processing. *Theorems* (WordProps, proved): C41_extract_exact, C41_word_scores. *Axioms:* classic, functional_extensionality_dep, sig_forall_dec, sig_not_dec.

### C42 bigram extraction counts adjacent pairs
*Modelled:* WordModel, WordSpec (of soynlp/word/_phrase.py). *Proof:* counting homomorphism; suffix-of-corpus invariant for checkpoints. *Theorems* (WordProps, proved): C42_counts_exact, C42_checkpoints_forget_a_prefix, C42_checkpoint_boundary_safe, C42_unigram_is_number_of_bigrams, C42_frequency_selection, C42_topk_limits_refuted, C42_mikolov_selection, C42_pmi_selection, C42_train_raises_iff. *Axioms:* classic, functional_extensionality_dep, sig_forall_dec, sig_not_dec.

### C43 vectorizer vocabulary is a bijection; encode, decode, transform, to_file, save and load agree
*Modelled:* VectorizerModel, VectorizerSpec (of soynlp/vectorizer/_vectorizer.py). *Proof:* bijection invariant; lists and files by induction. *Theorems* (VectorizerProps, proved): C43_fit_bijection, C43_set_bijection, C43_decode_encode, C43_encode_decode, C43_bow, C43_decode_bow, C43_transform, C43_to_file, C43_save_load, C43_save_load_default. *Axioms:* none.

### C44 vectorizer frequency limits
*Modelled:* VectorizerModel, VectorizerSpec (of soynlp/vectorizer/_vectorizer.py). *Proof:* exact document frequencies; int() of a product over Q. *Theorems* (VectorizerProps, proved): C44_vocabulary_exact, C44_constructor, C44_membership, C44_decreasing, C44_fit_defined, C44_term_frequency_refuted, C44_stopwords_ignored. *Axioms:* none.

### C45 sent_to_word_contexts_matrix counts window co-occurrences
*Modelled:* VectorizerModel, VectorizerSpec (of soynlp/vectorizer/_word_context.py). *Proof:* sum over positions = sum of stored increments; symmetry by re-indexing. *Theorems* (RaiseProps, VectorizerProps, proved): C45_raises, C45_vocabulary, C45_cooccurrence, C45_places, C45_symmetric, C45_shape, C45_shape_refuted, C45_defined. *Axioms:* none.

### C47 tag dictionary operations
*Modelled:* TaggerModel, TaggerSpec (of soynlp/postagger/_dictionary.py). *Proof:* invariant over operation histories against an abstract set. *Theorems* (RaiseProps, TaggerProps, proved): C47_remove_list, C47_new, C47_history, C47_get_pos_and_max_length, C47_errors, C47_save_load, C47_shared_set_refuted. *Axioms:* none.

### C48 the candidates of the LR template matcher
*Modelled:* TaggerModel, TaggerSpec (of soynlp/postagger/_dictionary.py, soynlp/postagger/_template.py). *Proof:* membership iff over all cuts. *Theorems* (TaggerProps, proved): C48_candidates, C48_order, C48_one_syllable_refuted. *Axioms:* none.

### C49 LREvaluator selects greedily and without overlaps
*Modelled:* TaggerModel, TaggerSpec (of soynlp/postagger/_evaluator.py). *Proof:* greedy selection over the sorted candidates. *Theorems* (TaggerProps, proved): C49_greedy, C49_disjoint, C49_order, C49_text_order_refuted, C49_default_score, C49_is_verb_refuted. *Axioms:* none.

### C50 eojeol tagging preserves the text
*Modelled:* TaggerModel, TaggerSpec (of soynlp/postagger/_evaluator.py, soynlp/postagger/_tagger.py, soynlp/postagger/_template.py). *Proof:* readings as an inductive specification; concatenation invariant. *Theorems* (TaggerProps, proved): C50_candidates, C50_candidates_tile, C50_best, C50_text_preserved, C50_tags_known, C50_default_scores, C50_compound_scores, C50_known_noun, C50_three_nouns_refuted. *Axioms:* none.

### C51 noun score prediction: roles, exact decision table, bounds
*Modelled:* NounModel, NounSpec (of soynlp/noun/_noun_ver2.py). *Proof:* role function, sums by role, decision table. *Theorems* (NounProps, proved): C51_roles, C51_predict_exact, C51_bounds. *Axioms:* none.

### C52 noun postprocessing removes exactly what it says
*Modelled:* NounModel, NounSpec (of soynlp/noun/_noun_postprocessing.py). *Proof:* iff for each filter. *Theorems* (NounProps, proved): C52_detaching, C52_ignore_features, C52_NJ. *Axioms:* none.

### C53 conjugate returns exactly the forms of the conjugation rules
*Modelled:* LemmaModel, LemmaSpec (of soynlp/lemmatizer/_conjugation.py). *Proof:* rules as an inductive relation over jamo; decision tables by computation over finite jamo sets and frame reasoning for the rest of the text. *Theorems* (LemmaProps, proved): C53_conjugate_exact, C53_conjugate_total, C53_conjugate_junction, C53_harmony, C53_harmony_consonant, C53_errors, C53_other_consonants, C53_chat, C53_stem_forms, C53_chat_refuted, C53_stem_forms_refuted. *Axioms:* none.

### C54 lemma candidates are exactly the proposals that conjugate back to the word
*Modelled:* LemmaModel, LemmaSpec (of soynlp/lemmatizer/_lemmatizer.py). *Proof:* as C53, iff for every input. *Theorems* (LemmaProps, LemmaProps2, proved): C54_candidates_exact, C54_candidates_sound, C54_errors, C54_word_keys_unused, C54_chat_exact, C54_lemmatize_exact, C54_candidates_method_refuted, C54_lemmatize_table, C54_table_words, C54_table_words_raise. *Axioms:* none.

### C55 analysis inverts conjugation, class by class
*Modelled:* LemmaModel, LemmaSpec (of soynlp/lemmatizer/_conjugation.py, soynlp/lemmatizer/_lemmatizer.py). *Proof:* composition of C53 and C54 class by class. *Theorems* (LemmaProps, proved): C55_round_trip, C55_round_trip_regular, C55_found_is_returned, C55_round_trip_refuted. *Axioms:* none.

### C57 extraction of endings
*Modelled:* PredModel, PredSpec (of soynlp/predicator/_eomi.py). *Proof:* roles and sums, batch loop invariant against the shrinking graph. *Theorems* (PredProps, proved): C57_roles, C57_predict_exact, C57_bounds, C57_stem_forms, C57_extract, C57_scores_unique, C57_result_bounds. *Axioms:* none.

### C69 extraction of stems
*Modelled:* PredModel, PredSpec (of soynlp/predicator/_stem.py). *Proof:* as C57. *Theorems* (PredProps2, proved): C69_tables, C69_roles, C69_predict_exact, C69_bounds, C69_extract, C69_known_endings_refuted, C69_frequency_first_refuted. *Axioms:* classic, functional_extensionality_dep, sig_forall_dec, sig_not_dec.

### C58 separation of adjectives and verbs
*Modelled:* PredModel, PredSpec2 (of soynlp/predicator/_adjective_vs_verb.py, soynlp/predicator/_predicator.py). *Proof:* partition of the analyses, decision by stem. *Theorems* (PredProps3, proved): C58_separation, C58_partition, C58_disjoint. *Axioms:* none.

### C59 the deprecated soynlp.hangle.normalize keeps exactly the requested classes
*Modelled:* NormalizerModel (of soynlp/hangle/_hangle.py). *Proof:* as C12/C14. *Theorems* (NormalizerProps, proved): C59_hangle_normalize_exact, C59_hangle_normalize_repeats. *Axioms:* none.

### C60 sort_by_alphabet rewrites a file in sorted order
*Modelled:* UtilsModel, PyFile (of soynlp/utils/utils.py). *Proof:* sort lemmas over lines. *Theorems* (UtilsProps, proved): C60_sorted_lines, C60_idempotent, C60_order. *Axioms:* none.

### C61 LRGraph from sentences weights pairs by the length of l
*Modelled:* UtilsModel (of soynlp/utils/utils.py). *Proof:* fold over sentences and cuts. *Theorems* (RaiseProps, UtilsProps, proved): C61_both_given, C61_both_given_raises, C61_from_sentences, C61_constructor_errors, C61_plain_counts_refuted. *Axioms:* none.

### C62 PMI values, threshold and marginals
*Modelled:* PmiModel (of soynlp/word/_pmi.py). *Proof:* sparse matrices as coordinate lists, logarithms in R. *Theorems* (PmiProps, proved): C62_values, C62_threshold, C62_marginals, C62_symmetric, C62_memory_friendly_refuted. *Axioms:* classic, functional_extensionality_dep, sig_forall_dec, sig_not_dec.

### C63 LR tagging with the unknown-word postprocessor
*Modelled:* TaggerModel, TaggerSpec (of soynlp/postagger/_evaluator.py, soynlp/postagger/_tagger.py, soynlp/postagger/_template.py). *Proof:* tiling invariant. *Theorems* (TaggerProps, proved): C63_postprocess_tiles, C63_eojeol_dropped, C63_text_preserved, C63_text_preserved_refuted. *Axioms:* none.

### C64 feature sets of the noun predictor
*Modelled:* NounModel, NounSpec (of soynlp/noun/_noun_ver2.py). *Proof:* set algebra. *Theorems* (NounProps2, proved): C64_load, C64_append, C64_pos_neg_disjoint, C64_common_disjoint_refuted, C64_postprocessing_option. *Axioms:* none.

### C65 batch noun prediction: longest words first, each eojeol used once
*Modelled:* NounModel, NounSpec2 (of soynlp/noun/_noun_ver2.py). *Proof:* loop invariant: after the words of length >= k the graph holds exactly the eojeols begun by no accepted word. *Theorems* (NounProps2, proved): C65_prediction, C65_order_independent. *Axioms:* none.

### C66 extraction of nouns
*Modelled:* NounModel, NounSpec2 (of soynlp/noun/_noun_postprocessing.py, soynlp/noun/_noun_ver2.py). *Proof:* composition of the stages. *Theorems* (NounProps3, proved): C66_extract, C66_repeatable, C66_pos_feature_option, C66_repeatable_without_reset_refuted, C66_compounds_filtered, C66_compound_frequency_refuted. *Axioms:* classic, functional_extensionality_dep, sig_forall_dec, sig_not_dec.

### C67 coverage of the extracted nouns
*Modelled:* NounModel, NounSpec2 (of soynlp/noun/_noun_ver2.py). *Proof:* loop invariant of the covering pass. *Theorems* (NounProps3, proved): C67_coverage, C67_bounds. *Axioms:* none.

### C68 compound nouns
*Modelled:* NounModel, NounSpec2 (of soynlp/noun/_noun_ver2.py). *Proof:* best cut over MaxScore (C21), accumulation invariant. *Theorems* (NounProps3, RaiseProps, proved): C68_decompose, C68_decompose_exact, C68_decompose_short, C68_compounds, C68_blank. *Axioms:* none.

### C70 domain-specific josa
*Modelled:* JosaModel, JosaSpec (of soynlp/noun/_josa.py). *Proof:* iff per candidate; entropies in R. *Theorems* (JosaProps, proved): C70_exact, C70_unique, C70_order, C70_bounds, C70_noun_josa_refuted. *Axioms:* classic, functional_extensionality_dep, sig_forall_dec, sig_not_dec.

### C71 table of predicators
*Modelled:* PredModel, PredSpec2, PredSpec3 (of soynlp/predicator/_predicator.py). *Proof:* table invariant of the lemma loop, removal loop invariant. *Theorems* (PredProps3, proved): C71_candidates, C71_table, C71_extract, C71_sound, C71_right_analysis_refuted, C71_empty_analysis_refuted, C71_order_refuted, C71_minimum_refuted, C71_given_candidates_refuted. *Axioms:* none.

### C72 dictionaries, training and learning of the predicator extractor
*Modelled:* PredModel, PredSpec3 (of soynlp/predicator/_predicator.py). *Proof:* composition. *Theorems* (PredProps4, RaiseProps, proved): C72_construction, C72_construction_refuted, C72_dictionary, C72_train_counter, C72_train_sentences, C72_minimum_one_refuted, C72_learn, C72_learn_nothing, C72_dictionary_raises. *Axioms:* classic, functional_extensionality_dep, sig_forall_dec, sig_not_dec.

### C73 training of the first noun extractor
*Modelled:* NounV1Model, NounV1Spec (of soynlp/noun/_noun_ver1.py). *Proof:* fold over files, counting homomorphism. *Theorems* (NounV1Props, proved): C73_load, C73_all_lines_refuted, C73_defined, C73_words, C73_graph, C73_right_limit_refuted, C73_whitespace_refuted. *Axioms:* none.

### C74 prediction and extraction of the first noun extractor
*Modelled:* NounV1Model, NounV1Spec (of soynlp/noun/_noun_ver1.py). *Proof:* weighted means over Q, iff per rule. *Theorems* (NounV1Props, proved): C74_predict, C74_bounds, C74_is_noun, C74_extract, C74_determined, C74_compound_refuted, C74_frequency_refuted. *Axioms:* classic, functional_extensionality_dep, sig_forall_dec, sig_not_dec.

### C75 construction, training and prediction of NewsNounExtractor
*Modelled:* NewsModel, NewsSpec (of soynlp/noun/_noun_news.py). *Proof:* as C73. *Theorems* (NewsProps, proved): C75_init, C75_base_dictionary_refuted, C75_train, C75_predict, C75_bounds. *Axioms:* none.

### C76 extraction of nouns by NewsNounExtractor
*Modelled:* NewsModel, NewsSpec (of soynlp/noun/_noun_news.py). *Proof:* stage by stage tables against the shrinking graph. *Theorems* (NewsProps, proved): C76_extract, C76_determined, C76_accumulates, C76_fresh_refuted, C76_feature_proportion_refuted, C76_total_refuted, C76_verb_split_refuted. *Axioms:* none.

### C77 Adverbs come from first words of lines and from 하- stems
*Modelled:* PosModel (of soynlp/pos/_adverb.py). *Proof:* induction over lines / stems. *Theorems* (PosProps, proved): C77_load, C77_stem_to_adverb. *Axioms:* none.

### C78 The part-of-speech extractors classify the eojeols exactly as their rules say
*Modelled:* PosModel, PosSpec (of soynlp/pos/_chat_pos.py, soynlp/pos/_news_pos.py). *Proof:* stage by stage: each table given extensionally from the previous one. *Theorems* (PosProps, proved): C78_nouns, C78_predicators, C78_rest. *Axioms:* none.

### C79 The extractors do not fail and their classes are disjoint
*Modelled:* PosModel, PosSpec (of soynlp/pos/_chat_pos.py, soynlp/pos/_news_pos.py). *Proof:* exception-freedom and disjointness from C78. *Theorems* (PosProps, RaiseProps, proved): C79_total, C79_total_refuted, C79_disjoint, C79_stems, C79_noun_count_refuted, C79_dropped_refuted, C79_repeat_refuted, C79_seam_raises. *Axioms:* none.

### C80 Exact result of MaxLRScoreTokenizer
*Modelled:* LRTokModel, LRTokSpec (of soynlp/tokenizer/_tokenizer.py). *Proof:* lexicographic sort uniqueness, greedy selection. *Theorems* (LRTokProps, proved): C80_dictionaries, C80_selection, C80_selection_total, C80_output, C80_sentence. *Axioms:* none.

### C81 EojeolPatternTrainer counts exactly the patterns of the corpus
*Modelled:* BuilderModel, BuilderSpec (of soynlp/tokenizer/_tokenizer_builder.py). *Proof:* counting invariant of both graphs. *Theorems* (BuilderProps, proved): C81_fails, C81_default_refuted, C81_vocabulary, C81_graph. *Axioms:* none.

### C82 EojeolPatternTrainer: what is saved can be loaded
*Modelled:* BuilderModel, PyFile (of soynlp/tokenizer/_tokenizer_builder.py). *Proof:* files as text, printer/parser induction. *Theorems* (BuilderProps, BuilderProps2, proved): C82_save_load, C82_vocabulary_refuted, C82_verbose_refuted, C82_header, C82_file. *Axioms:* none.

### C83 EojeolPatternTrainer.train_hits and POSExtractor.extract never return
*Modelled:* BuilderModel (of soynlp/noun/_noun_ver2.py, soynlp/postagger/_pos_extractor.py, soynlp/tokenizer/_tokenizer_builder.py). *Proof:* case analysis on the first failing step. *Theorems* (BuilderProps, proved): C83_hits, C83_hits_trained, C83_pos_extractor. *Axioms:* none.

### C84 What NewsPOSExtractor and ChatPOSExtractor learn, and train_extract always succeeds
*Modelled:* PosTrainModel, PosTrainSpec (on top of the Utils, Noun, Pred, Lemma, Pos models) (of soynlp/pos/_chat_pos.py, soynlp/pos/_news_pos.py). *Proof:* composition of C33 (counts), C65 (noun extraction), C71/C72 (predicators), C77 (adverbs) into one relation; decomposability of stems and endings from conjugation gives totality of extract by C79. *Theorems* (PosTrainProps, proved): C84_train, C84_trained, C84_empty, C84_predicators, C84_train_extract, C84_counts, C84_ensure_normalized_refuted, C84_noun_count_refuted. *Axioms:* classic, functional_extensionality_dep, sig_forall_dec, sig_not_dec.

### C85 EojeolCounter: what an interrupted save and a failed load leave
*Modelled:* CrashModel, CrashSpec (of soynlp/utils/utils.py). *Proof:* a crash leaves an initial piece of the written characters; decomposition of a piece into complete lines and a cut line; value of the first digits of a number; load with the state it leaves behind. *Theorems* (CrashProps, proved): C85_interrupted_save, C85_no_invention, C85_detected_refuted, C85_failed_load, C85_load_atomic_refuted. *Axioms:* none.

### C86 LRGraph: what an interrupted save and a failed load leave
*Modelled:* CrashModel, CrashSpec (of soynlp/utils/utils.py). *Proof:* as C85; invariant of the loader over the complete lines of a file grouped by left part, then case analysis of the cut line. *Theorems* (CrashProps2, proved): C86_interrupted_save, C86_no_invention, C86_no_new_pair_refuted, C86_failed_load, C86_reset_after_failed_load_refuted. *Axioms:* none.

### C87 sort_by_alphabet rewrites the file in place: what an interruption loses
*Modelled:* UtilsModel, CrashSpec (of soynlp/utils/utils.py). *Proof:* as C85 on the rewritten file. *Theorems* (CrashProps3, proved): C87_interrupted_sort, C87_lines_kept, C87_nothing_lost_refuted. *Axioms:* none.

### C88 An interrupted save of a vocabulary
*Modelled:* VectorizerModel, CrashSpec (of soynlp/vectorizer/_vectorizer.py). *Proof:* as C85 on the vocabulary file; the two tables of the loaded vocabulary. *Theorems* (CrashProps3, proved): C88_interrupted_save, C88_indices_refuted. *Axioms:* none.

### C89 An LRGraph shares a plain dict of plain dicts with its caller until it is reset, and nothing else
*Modelled:* AliasModel (objects and references, on top of UtilsModel) (of soynlp/utils/utils.py). *Proof:* refinement of the reference-free model by a separation invariant; sharing invariants per primitive write, induction over histories and over interleavings with caller's writes. *Theorems* (AliasProps, proved): C89_object, C89_shared, C89_rows_shared, C89_copied, C89_reset_restores, C89_callers_write, C89_argument_untouched_refuted, C89_views_agree_refuted. *Axioms:* none.

### C90 Progress messages change the outcome only when nothing was counted
*Modelled:* VerboseModel on top of NounModel, PredModel, PosTrainModel (of soynlp/noun/_noun_ver2.py, soynlp/pos/_news_pos.py, soynlp/predicator/_predicator.py). *Proof:* the silent results of C66, C71 and C84; sums of positive counts vanish only for empty tables. *Theorems* (VerboseProps, proved): C90_nouns, C90_predicators, C90_pos, C90_messages_only_refuted, C90_given_candidates_refuted, C90_given_counts. *Axioms:* classic, functional_extensionality_dep, sig_forall_dec, sig_not_dec.

### C91 The file of a tagger dictionary: JSON, read back exactly, layout irrelevant
*Modelled:* JsonModel (writer and reader of the text) on top of TaggerModel, JsonSpec (grammar) (of soynlp/postagger/_dictionary.py). *Proof:* soundness and completeness of the reader for the grammar by mutual induction; the written text is derivable. *Theorems* (JsonProps, JsonProps2, proved): C91_reader, C91_reader_deterministic, C91_load, C91_text, C91_roundtrip, C91_single_word_refuted, C91_max_length_refuted, C91_hexadecimal, C91_surrogates, C91_surrogates_unique, C91_numerals, C91_loaded_words. *Axioms:* none.

### C92 An interrupted save of a tagger dictionary is detected; what a failed load leaves
*Modelled:* JsonModel, JsonSpec, CrashSpec (of soynlp/postagger/_dictionary.py). *Proof:* a complete object followed by more text leaves a rest, so no proper prefix of an object text is a document; case analysis of load. *Theorems* (JsonProps, proved): C92_failed_load, C92_interrupted_save, C92_failed_load_atomic_refuted. *Axioms:* none.

### C93 Predicator extractors and the sets and counters they share with their caller
*Modelled:* ShareModel, ShareSpec (of soynlp/predicator/_predicator.py, soynlp/utils/utils.py). *Proof:* an explicit store of sets and counters; effect of one operation on every object, invariant that all references are valid, induction over the history; witnesses for the effects of sharing. *Theorems* (ShareProps, proved): C93_counter_table, C93_counter_sum, C93_train_sum, C93_coverage, C93_sets, C93_sets_grow, C93_new, C93_train, C93_extract, C93_foreign, C93_shared_counter_refuted, C93_shared_set_refuted, C93_after_extract_refuted, C93_coverage_falls_refuted. *Axioms:* classic, functional_extensionality_dep, sig_forall_dec, sig_not_dec.

### C94 The modes of SimpleTagger.tag
*Modelled:* TagModeModel (of soynlp/postagger/_tagger.py). *Proof:* the debug and flatten arguments as parameters of the one tagging function; unfolding over the words of the sentence, stability and order of the sort of the candidates. *Theorems* (TagModeProps, proved): C94_lr_modes, C94_lr_debug, C94_simple_modes, C94_simple_debug, C94_words_shown. *Axioms:* none.

### C95 Tagger dictionaries that hold the same dict
*Modelled:* TagShareModel (of soynlp/postagger/_dictionary.py). *Proof:* worlds of word collections, dict objects and Dictionary objects; the operations of TaggerModel.v through a view; invariant: no collection is referred to twice, dicts in use hold sets; effect of every operation on every Dictionary. *Theorems* (TagShareProps, proved): C95_step, C95_outcomes, C95_new, C95_frame, C95_agree, C95_max_length, C95_max_length_refuted, C95_same_set_refuted. *Axioms:* none.

### C96 A save of EojeolPatternTrainer that did not finish
*Modelled:* BuilderModel (of soynlp/tokenizer/_tokenizer_builder.py). *Proof:* the file is written row by row; every initial piece is complete rows and a beginning of the next; reader run on rows by induction, on the torn row by cases on where the two literals and the digits end. *Theorems* (BuilderCrashProps, proved): C96_interrupted, C96_no_invention, C96_blank_lines, C96_detected_refuted. *Axioms:* none.

### C97 A training of WordExtractor that fails part way
*Modelled:* WordSaveModel (of soynlp/word/_word.py). *Proof:* extractor objects around the counters of WordModel.v; a corpus is the sentences it yields and how its iteration ends; invariant of the counters over all histories; the loop lemmas of C38 and C40 without the final filters. *Theorems* (WordSaveProps, proved): C97_outcome, C97_completed, C97_failed, C97_failed_neighbours, C97_again_afresh, C97_again_cumulated, C97_minimum_frequency_refuted, C97_again_refuted. *Axioms:* classic, functional_extensionality_dep, sig_forall_dec, sig_not_dec.

### C98 save and load of WordExtractor
*Modelled:* WordSaveModel (of soynlp/word/_word.py). *Proof:* worlds of extractors and files; what kind of dict a counter is decides whether pickle takes it; invariant of the files; load as a list of assignments in order. *Theorems* (WordSaveProps, proved): C98_when_save_works, C98_save_load, C98_failed_save, C98_missing_key, C98_good_histories, C98_old_file_survives_refuted. *Axioms:* none.

### C99 Tokenizers and the dicts they were made from
*Modelled:* TokShareModel (of soynlp/tokenizer/_noun_tokenizer.py, soynlp/tokenizer/_tokenizer.py). *Proof:* worlds of dict objects and tokenizers that refer to them; answers are those of TokenizerModel.v on what the references point to; by induction over the history the dicts are what the specification replays and each tokenizer is what its call made. *Theorems* (TokShareProps, proved): C99_answers, C99_outcomes, C99_frame, C99_live, C99_agree, C99_lr_fixed, C99_empty_refuted, C99_preference_refuted. *Axioms:* none.

### C100 Calling a MaxLRScoreTokenizer
*Modelled:* LRCallModel (of soynlp/tokenizer/_tokenizer.py). *Proof:* the rows as records with an optional total; forgetting what tokenize does not use maps them to LRTokModel; filtering commutes with the stable sort. *Theorems* (LRCallProps, proved): C100_words, C100_rows, C100_positions_refuted. *Axioms:* none.

### C101 A noun extractor used again and again
*Modelled:* NounLifeModel (of soynlp/noun/_noun_ver2.py, soynlp/utils/utils.py). *Proof:* Invariant over arbitrary histories of calls: the graph of the extractor is the trained one with counts taken away (an inductive consequence of the LRGraph invariants of UtilsProofs), so reset_lrgraph gives the trained one back; extraction is total on all such graphs, and no prediction score exceeds 1, which is why no domain feature is found.. *Theorems* (NounLifeProps, proved): C101_forgets, C101_unsettled, C101_answers, C101_features, C101_domain_nothing, C101_same_answers, C101_learnt, C101_trainings_add_up_refuted, C101_extraction_without_reset_leaves_answers_refuted. *Axioms:* classic, functional_extensionality_dep, sig_forall_dec, sig_not_dec.

### C102 A first-version noun extractor used again and again
*Modelled:* NounV1LifeModel (of soynlp/noun/_noun_ver1.py, soynlp/utils/utils.py). *Proof:* A corpus is what its two iterations yield and how each ends. Invariant by reverse induction over histories: the object is a function of the last training whose corpus could be read twice and of the last one whose corpus could be read once (specified by a fold over the calls, not by the model); extraction leaves the object as it was since reset_lrgraph restores the trained graph; the answers are derived as in C74 for a vocabulary, counts and cohesion counts that come from three different readings.. *Theorems* (NounV1LifeProps, proved): C102_forgets, C102_no_trace, C102_trains, C102_train_extract, C102_untrained, C102_answers, C102_one_shot, C102_determined, C102_failed_training_refuted, C102_add_up_refuted. *Axioms:* classic, functional_extensionality_dep, sig_forall_dec, sig_not_dec.

### C103 Vectorizers used again and again, sharing files
*Modelled:* VecLifeModel (of soynlp/vectorizer/_vectorizer.py). *Proof:* A world of numbered vectorizers and files; a method that iterates several times has one reading (yields, exception) per iteration. One-step lemmas give the vocabulary of every vectorizer and the file table exactly, in any world; the history theorems follow by induction over the calls: what no call writes or learns is kept, and with clean tokens every vocabulary is one that was learnt (invariant over vocabularies and vocabulary files together). Directories and encoding errors are not modelled.. *Theorems* (VecLifeProps, proved): C103_vocabulary, C103_ends, C103_files, C103_last_fit, C103_save_load, C103_total, C103_coherent, C103_answers, C103_composite, C103_fit_transform_refuted, C103_iterator_refuted, C103_atomic_refuted, C103_blank_refuted. *Axioms:* none.


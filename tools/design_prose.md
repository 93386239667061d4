# Formal model of lovit/soynlp in Rocq (Coq 8.16.1)

## Layout
* `rocq/theories/PyBase.v, PyDict.v, PySort.v, PyText.v, PyFile.v, PyRe.v`: the fragment of Python the code uses. Strings are lists of
  code points (`list N`), results that may be exceptions are `res` (`Ok v | Err e`), dicts are insertion-ordered association lists,
  `sorted` is a stable sort, `split`/`strip`/`\s+`, text files as strings with `\n`, one back-reference pattern.
* `rocq/theories/<Topic>Model.v`: the executable model, function by function, without proofs. Every definition cites the file and
  lines of /repo it models; simplifications are stated in the same comment.
* `rocq/theories/<Topic>Spec*.v`: small independent vocabulary in which the properties are stated (where one is needed).
* `rocq/theories/<Topic>Proofs*.v`: lemmas.
* `rocq/theories/<Topic>Props*.v`: the property theorems, each followed by `Print Assumptions`, with `Example`s showing concrete
  non-trivial data that meet the hypotheses.
* `tools/`: `props.py` (properties.jsonl), `manifest.py` (MANIFEST.json), `assumptions.py` (runs `Print Assumptions` for every theorem),
  `design.py` (this file), `mutate.py` (mutation testing, log in `seeded/LOG.jsonl`).

## Conventions
* Exceptions are values, and the theorems say for which inputs they occur. What an object looks like after a call that raised is modelled
  only where a property says so (C28, C47, C85, C86).
* A crash during a save leaves an initial piece of the characters that were to be written (C85-C88). A cut inside the UTF-8 bytes of one
  character (the next read raises UnicodeDecodeError) and the buffering of the operating system are not modelled.
* Python `float` is modelled by exact numbers: `Q` where only field operations and comparisons are used, `R` (standard library) for
  logarithms, powers and square roots. Hence rounding, overflow, NaN and ties produced by rounding are outside the model. Comparisons with
  decimal constants (0.3, 0.9, ...) use the exact decimal.
* Python `int` is `Z`; lengths are `nat` or `Z`.
* Python `set`s are duplicate-tolerant lists used through membership; where iteration order of a set could matter, either the theorem
  quantifies over the order or the result is shown not to depend on it.
* JSON (`Dictionary.save/load`) is modelled at the level of the text: strings, escapes, numerals, nesting. Limits on nesting depth and on the digits of an
  integer, and lone surrogates (which cannot be encoded), are not.
* Regular-expression classes that need Unicode tables (`\w`, `\d`) are universally quantified predicates.
* Normalising functions passed to trainers are universally quantified functions on strings.
* A naive claim that the code violates is proved false as `..._refuted` with a concrete witness, next to the exact statement that holds.

## Trusted base
1. Coq's kernel (8.16.1), including `vm_compute`, which is used for finite computations (`native_compute` is not used).
2. The reading of /repo into the `*Model.v` files (no code was run, there is no extraction).
3. The axioms below, all of the standard library. No axioms of our own, no `Admitted`, no disabled checks, no functors or module types.

`Print Assumptions` says "Closed under the global context" for @@CLOSED@@ theorems of MANIFEST.json. The other @@REAL@@ use the standard library's
construction of the reals:

@@ASSUME@@

## What is modelled
hangle (`_hangle.py`, `_distance.py`), normalizer, tokenizer (`_tokenizer.py`, `_normalizer.py`, `_noun_tokenizer.py`, `_tokenizer_builder.py`),
utils (`utils.py`), word (`_word.py`, `_phrase.py`, `_pmi.py`), vectorizer (`_vectorizer.py`, `_word_context.py`), postagger (`_dictionary.py`, `_template.py`,
`_evaluator.py`, `_tagger.py`, `_pos_extractor.py`), noun (`_noun_ver1.py`, `_noun_ver2.py`, `_noun_news.py`, `_noun_postprocessing.py`, `_josa.py`),
lemmatizer, predicator (`_eomi.py`, `_stem.py`, `_adjective_vs_verb.py`, `_predicator.py`), pos (`_adverb.py`, `_news_pos.py`, `_chat_pos.py`).

## What is not modelled
* Progress and memory messages, log files, warnings. The arithmetic inside the messages that can fail is modelled: `VerboseModel.v` and
  `EojeolPatternTrainer`. The other models are those of silent runs; the remaining messages divide by the length of a list they are iterating over.
* Operating-system errors while reading or writing files; encodings other than the text itself; pickles.
* numpy/scipy/sklearn internals: sparse matrices are coordinate lists, `argsort` any sort, `svd` (`utils/math.py`) is not modelled; `pairwise_distances` is an arbitrary
  function.
* Aliasing of mutable arguments: outside `AliasModel.v`, `ShareModel.v`, `TagShareModel.v` and `TokShareModel.v`, a dict, set or EojeolCounter the caller goes on changing after handing it over (or that
  the library changes in place for the caller) is a value in the model. `AliasModel.v` models `LRGraph` with explicit references (the dict handed
  to the constructor, the saved origin, the inner dictionaries), and C89 relates it to the value model used everywhere else. `ShareModel.v` models the sets and counters predicator extractors share (C93),
  `TagShareModel.v` the dict several tagger dictionaries hold (C95), `TokShareModel.v` the dicts tokenizers hold (C99; there a tokenizer builder returns new dicts).
* `parse_int` is Python's `int()` of a text (blanks, signs, underscores, digits of all scripts of Unicode 14) without the limit of 4300 digits; `float()` of a text is a parameter of the
  models that use it (`NewsModel.v`, `NounV1Model.v`).
* Dead or unimplemented code: `postagger/_lrtagger.py`, `postagger/_maxscore.py`, `ner/_rules.py` (raises only), demo scripts.

## Properties
@@TABLE@@

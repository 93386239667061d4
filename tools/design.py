"""Writes DESIGN.md: prose here, per-property table from properties.jsonl, MANIFEST.json and tools/assumptions.json."""
import json, os
ROOT = os.path.dirname(os.path.dirname(os.path.abspath(__file__)))
A = json.load(open(ROOT + '/tools/assumptions.json')); AX, FILE = A['axioms'], A['file']
M = {c['property']: c for c in json.load(open(ROOT + '/MANIFEST.json'))['claims']}
P = [json.loads(l) for l in open(ROOT + '/properties.jsonl')]
HOW = {
'C01': ('HangleModel', 'linear arithmetic on the code space (div/mod of a code point minus 0xAC00) plus computation over the three finite jamo inventories'),
'C02': ('HangleModel', 'case analysis on the code ranges; injectivity from C01'),
'C03': ('HangleModel', 'inventory membership decided by the position function; iff'),
'C04': ('HangleModel', 'interval arithmetic on the code ranges'),
'C05': ('HangleModel', 'induction over the cleaned sentence, one entry at a time, from C01/C02'),
'C06': ('HangleModel', 'induction over the sentence; index ranges of each block by arithmetic'),
'C07': ('HangleModel', 'induction over the encoded list, exact exception condition'),
'C08': ('DistanceModel, DistanceSpec', 'row-by-row dynamic programme proved equal to a recursive minimum, then to the least cost over an inductive alignment relation; metric laws from composing alignments'),
'C09': ('DistanceModel, DistanceSpec', 'the same generic programme over an arbitrary non-negative cost function; the swapped call is a refutation'),
'C10': ('DistanceModel, DistanceSpec', 'instance of the generic theorem with costs in Q; triangle inequality of the substitution cost by decomposition'),
'C11': ('DistanceModel', 'set algebra over Q; Cauchy-Schwarz over R'),
'C12': ('NormalizerModel, NormalizerSpec', 'regular-expression substitution = runs specification, induction over the text'),
'C13': ('NormalizerModel, NormalizerSpec', 'as C12 for every combination of flags, class tables as predicates'),
'C14': ('NormalizerModel, PyRe, PyReProofs', 'a small backtracking matcher for the one back-reference pattern; runs specification by strong induction'),
'C15': ('NormalizerModel', 'induction over the character window; locality as an explicit three-character function'),
'C16': ('NormalizerModel', 'longest-prefix specification by induction from the right; idempotence from the characterisation'),
'C17': ('NormalizerModel, PyRe', 'induction over eojeols'),
'C18': ('TokenizerModel, TokenizerSpec', 'findall of each class pattern as a run scan; refinement of tilings pass by pass'),
'C19': ('TokenizerModel', 'stable sort + maximality'),
'C20': ('TokenizerModel, TokenizerSpec', 'tiling invariant of the selection loop with fuel shown sufficient'),
'C21': ('TokenizerModel', 'greedy selection proved equal to "repeatedly take the best compatible candidate" by induction over the sorted candidates'),
'C22': ('TokenizerModel', 'invariant on tokens'),
'C23': ('TokenizerModel', 'non-overlap invariant of the L-R selection loop'),
'C24': ('TokenizerModel', 'greedy-chain specification by induction on the remaining text'),
'C25': ('TokenizerModel', 'from C20 and the filters'),
'C26': ('UtilsModel, UtilsSpec', 'invariant over an arbitrary list of operations'),
'C27': ('UtilsModel, UtilsSpec', 'extensional description of both indexes after the operation; induction over the splits'),
'C28': ('UtilsModel, UtilsSpec', 'exact exception condition, including the half-done state'),
'C29': ('UtilsModel, UtilsSpec', 'invariant over operation sequences (the original table never changes)'),
'C30': ('UtilsModel', 'stable sort lemmas'),
'C31': ('UtilsModel, UtilsSpec', 'fold over all cuts; uniqueness of the cut of a flattened eojeol'),
'C32': ('UtilsModel, PyFile', 'files as text; parse of the printed lines by induction'),
'C33': ('UtilsModel', 'counting homomorphism; with periodic filtering an invariant relating the counter to a suffix of the corpus'),
'C34': ('UtilsModel', 'invariant over a sequence of removals, Q arithmetic'),
'C35': ('UtilsModel, PyFile', 'files as text; permutation of the sorted items'),
'C36': ('UtilsModel, PyFile', 'iteration as a function of the file text, induction over lines'),
'C37': ('UtilsModel', 'stable sort over abstract distances (numpy argsort as any sort)'),
'C38': ('WordModel, WordSpec', 'counting homomorphism over sentences and cuts; additivity for cumulate'),
'C39': ('WordModel', 'invariant over training histories; powers in R'),
'C40': ('WordModel, WordSpec', 'exact count tables; entropy in R with bounds by concavity (ln x <= x - 1)'),
'C41': ('WordModel, WordSpec', 'filter specification, independence from the order of processing'),
'C42': ('WordModel, WordSpec', 'counting homomorphism; suffix-of-corpus invariant for checkpoints'),
'C43': ('VectorizerModel, VectorizerSpec', 'bijection invariant; lists and files by induction'),
'C44': ('VectorizerModel, VectorizerSpec', 'exact document frequencies; int() of a product over Q'),
'C45': ('VectorizerModel, VectorizerSpec', 'sum over positions = sum of stored increments; symmetry by re-indexing'),
'C47': ('TaggerModel, TaggerSpec', 'invariant over operation histories against an abstract set'),
'C48': ('TaggerModel, TaggerSpec', 'membership iff over all cuts'),
'C49': ('TaggerModel, TaggerSpec', 'greedy selection over the sorted candidates'),
'C50': ('TaggerModel, TaggerSpec', 'readings as an inductive specification; concatenation invariant'),
'C51': ('NounModel, NounSpec', 'role function, sums by role, decision table'),
'C52': ('NounModel, NounSpec', 'iff for each filter'),
'C53': ('LemmaModel, LemmaSpec', 'rules as an inductive relation over jamo; decision tables by computation over finite jamo sets and frame reasoning for the rest of the text'),
'C54': ('LemmaModel, LemmaSpec', 'as C53, iff for every input'),
'C55': ('LemmaModel, LemmaSpec', 'composition of C53 and C54 class by class'),
'C57': ('PredModel, PredSpec', 'roles and sums, batch loop invariant against the shrinking graph'),
'C58': ('PredModel, PredSpec2', 'partition of the analyses, decision by stem'),
'C59': ('NormalizerModel', 'as C12/C14'),
'C60': ('UtilsModel, PyFile', 'sort lemmas over lines'),
'C61': ('UtilsModel', 'fold over sentences and cuts'),
'C62': ('PmiModel', 'sparse matrices as coordinate lists, logarithms in R'),
'C63': ('TaggerModel, TaggerSpec', 'tiling invariant'),
'C64': ('NounModel, NounSpec', 'set algebra'),
'C65': ('NounModel, NounSpec2', 'loop invariant: after the words of length >= k the graph holds exactly the eojeols begun by no accepted word'),
'C66': ('NounModel, NounSpec2', 'composition of the stages'),
'C67': ('NounModel, NounSpec2', 'loop invariant of the covering pass'),
'C68': ('NounModel, NounSpec2', 'best cut over MaxScore (C21), accumulation invariant'),
'C69': ('PredModel, PredSpec', 'as C57'),
'C70': ('JosaModel, JosaSpec', 'iff per candidate; entropies in R'),
'C71': ('PredModel, PredSpec2, PredSpec3', 'table invariant of the lemma loop, removal loop invariant'),
'C72': ('PredModel, PredSpec3', 'composition'),
'C73': ('NounV1Model, NounV1Spec', 'fold over files, counting homomorphism'),
'C74': ('NounV1Model, NounV1Spec', 'weighted means over Q, iff per rule'),
'C75': ('NewsModel, NewsSpec', 'as C73'),
'C76': ('NewsModel, NewsSpec', 'stage by stage tables against the shrinking graph'),
'C77': ('PosModel', 'induction over lines / stems'),
'C78': ('PosModel, PosSpec', 'stage by stage: each table given extensionally from the previous one'),
'C79': ('PosModel, PosSpec', 'exception-freedom and disjointness from C78'),
'C80': ('LRTokModel, LRTokSpec', 'lexicographic sort uniqueness, greedy selection'),
'C81': ('BuilderModel, BuilderSpec', 'counting invariant of both graphs'),
'C82': ('BuilderModel, PyFile', 'files as text, printer/parser induction'),
'C83': ('BuilderModel', 'case analysis on the first failing step'),
'C84': ('PosTrainModel, PosTrainSpec (on top of the Utils, Noun, Pred, Lemma, Pos models)', 'composition of C33 (counts), C65 (noun extraction), C71/C72 (predicators), C77 (adverbs) into one relation; decomposability of stems and endings from conjugation gives totality of extract by C79'),
'C85': ('CrashModel, CrashSpec', 'a crash leaves an initial piece of the written characters; decomposition of a piece into complete lines and a cut line; value of the first digits of a number; load with the state it leaves behind'),
'C86': ('CrashModel, CrashSpec', 'as C85; invariant of the loader over the complete lines of a file grouped by left part, then case analysis of the cut line'),
'C87': ('UtilsModel, CrashSpec', 'as C85 on the rewritten file'),
'C88': ('VectorizerModel, CrashSpec', 'as C85 on the vocabulary file; the two tables of the loaded vocabulary'),
'C89': ('AliasModel (objects and references, on top of UtilsModel)', 'refinement of the reference-free model by a separation invariant; sharing invariants per primitive write, induction over histories and over interleavings with caller\'s writes'),
'C90': ('VerboseModel on top of NounModel, PredModel, PosTrainModel', 'the silent results of C66, C71 and C84; sums of positive counts vanish only for empty tables'),
'C91': ('JsonModel (writer and reader of the text) on top of TaggerModel, JsonSpec (grammar)', 'soundness and completeness of the reader for the grammar by mutual induction; the written text is derivable'),
'C92': ('JsonModel, JsonSpec, CrashSpec', 'a complete object followed by more text leaves a rest, so no proper prefix of an object text is a document; case analysis of load'),
'C93': ('ShareModel, ShareSpec', 'an explicit store of sets and counters; effect of one operation on every object, invariant that all references are valid, induction over the history; witnesses for the effects of sharing'),
'C94': ('TagModeModel', 'the debug and flatten arguments as parameters of the one tagging function; unfolding over the words of the sentence, stability and order of the sort of the candidates'),
'C95': ('TagShareModel', 'worlds of word collections, dict objects and Dictionary objects; the operations of TaggerModel.v through a view; invariant: no collection is referred to twice, dicts in use hold sets; effect of every operation on every Dictionary'),
'C96': ('BuilderModel', 'the file is written row by row; every initial piece is complete rows and a beginning of the next; reader run on rows by induction, on the torn row by cases on where the two literals and the digits end'),
'C97': ('WordSaveModel', 'extractor objects around the counters of WordModel.v; a corpus is the sentences it yields and how its iteration ends; invariant of the counters over all histories; the loop lemmas of C38 and C40 without the final filters'),
'C98': ('WordSaveModel', 'worlds of extractors and files; what kind of dict a counter is decides whether pickle takes it; invariant of the files; load as a list of assignments in order'),
'C99': ('TokShareModel', 'worlds of dict objects and tokenizers that refer to them; answers are those of TokenizerModel.v on what the references point to; by induction over the history the dicts are what the specification replays and each tokenizer is what its call made'),
'C100': ('LRCallModel', 'the rows as records with an optional total; forgetting what tokenize does not use maps them to LRTokModel; filtering commutes with the stable sort'),
    'C101': ('NounLifeModel', 'Invariant over arbitrary histories of calls: the graph of the extractor is the trained one with counts taken away (an inductive consequence of the LRGraph invariants of UtilsProofs), so reset_lrgraph gives the trained one back; extraction is total on all such graphs, and no prediction score exceeds 1, which is why no domain feature is found.'),
'C102': ('NounV1LifeModel', 'A corpus is what its two iterations yield and how each ends. Invariant by reverse induction over histories: the object is a function of the last training whose corpus could be read twice and of the last one whose corpus could be read once (specified by a fold over the calls, not by the model); extraction leaves the object as it was since reset_lrgraph restores the trained graph; the answers are derived as in C74 for a vocabulary, counts and cohesion counts that come from three different readings.'),
'C103': ('VecLifeModel', 'A world of numbered vectorizers and files; a method that iterates several times has one reading (yields, exception) per iteration. One-step lemmas give the vocabulary of every vectorizer and the file table exactly, in any world; the history theorems follow by induction over the calls: what no call writes or learns is kept, and with clean tokens every vocabulary is one that was learnt (invariant over vocabularies and vocabulary files together). Directories and encoding errors are not modelled.'),
}
extra = ROOT + '/tools/how_extra.json'
if os.path.exists(extra): HOW.update({k: tuple(v) for k, v in json.load(open(extra)).items()})
REAL = [n for n in AX if AX[n]]
PROSE = open(ROOT + '/tools/design_prose.md').read()
rows = []
for p in P:
    i = p['id']; c = M[i]; mo, how = HOW[i]
    files = sorted({FILE[t] for t in c['theorems']})
    ax = sorted({a.split('.')[-1] for t in c['theorems'] for a in AX.get(t, [])})
    rows.append('### %s %s\n*Modelled:* %s (of %s). *Proof:* %s. *Theorems* (%s, %s): %s. *Axioms:* %s.\n' % (
        i, p['title'], mo, ', '.join(sorted({a.split(':')[0] for a in p['anchors']})), how, ', '.join(files), c['status'], ', '.join(c['theorems']), ', '.join(ax) or 'none'))
assume = '\n'.join('* `%s`: %s' % (n, ', '.join(AX[n])) for n in sorted(REAL))
open(ROOT + '/DESIGN.md', 'w').write(PROSE.replace('@@TABLE@@', '\n'.join(rows)).replace('@@ASSUME@@', assume).replace('@@CLOSED@@', str(len(AX) - len(REAL))).replace('@@REAL@@', str(len(REAL))))

# Formal model of huggingface/tokenizers in Coq: design

The Rust sources under `/repo/tokenizers/src` are read as text and modelled by hand in Gallina
(`rocq/theories`). Nothing is extracted from or run against the Rust code: the link between the two is
the citation (file and lines) carried by every definition.

## Layout

Each part of the library has up to four kinds of files.

* `…Model.v`: the code, function by function, with citations.
* `…Spec.v`: the vocabulary of the statements, independent of the algorithms of the model.
* `…Proofs*.v`: lemmas.
* `…Props.v`: the theorems `Cnn_…` of the properties, each with an `Example` that its hypotheses are met.

`Base.v`, `StrBytes.v`, `ListFacts.v`, `AMap.v` and `Utf8.v` are shared. `Audit.v` prints the assumptions of every theorem.

## Conventions

* A Rust `Result<T, E>` that may also panic becomes `res E T := Ok t | Err e | Panic`. A panic is always an
  explicit value, never a default. Arithmetic that can underflow (`usize` subtraction), slicing, indexing,
  `unwrap`, `assert!` and `todo!` yield `Panic`. The build is assumed to check overflow (debug profile): a release
  build would wrap where the model panics.
* Strings are lists of characters (code points in `N`). Byte offsets are sums of `len_utf8`.
* `usize` is `nat` or `N` without an upper bound, except where the code narrows to 32 bits (ids, pair counts, files).
* Loops that Coq cannot see terminate take fuel. Running out of fuel is `Panic`, and theorems that conclude `Ok` show
  that the fuel given is enough.
* Hash maps are association lists with distinct keys. Where the iteration order of a hash map can be observed, the
  order is an argument and the theorems hold for every order.
* Thread schedules, random draws, ties of unstable sorts and of heaps are arguments too.

## Trusted base

1. The kernel of Coq 8.16.1 (and `coqchk`). No check of the kernel is switched off.
2. Axioms. `Print Assumptions` says "Closed under the global context" for every theorem of `Audit.v` except those of
   `UnigramFloatProps.v`, `MarginalRealProps.v` (`C74_real_laws`, `C74_cut`) and `UnigramTrainRealProps.v` (`C75_real_laws`, `C75_endless_refuted`). The former use Flocq's definition of binary64
   numbers over the real numbers of the standard library, the others these real numbers, and so they depend on `ClassicalDedekindReals.sig_forall_dec`, `ClassicalDedekindReals.sig_not_dec`,
   `FunctionalExtensionality.functional_extensionality_dep` and `Classical_Prop.classic`, all of the standard library.
   The development declares no axiom of its own.
3. The transcription from Rust to Gallina, made by hand.
4. What the model takes as an argument instead of modelling it (an oracle). The theorems hold for every value of the
   argument that meets the stated hypotheses:
   * regular expression engines (`find_iter`): ordered, non-overlapping matches on character boundaries;
   * the Aho-Corasick automaton of added tokens: leftmost-longest matches of its patterns;
   * Unicode tables: `is_whitespace`, `is_alphanumeric`, categories, lower and upper case, the four normal forms
     with their changes, grapheme boundaries, scripts;
   * the chart of `spm_precompiled`;
   * float arithmetic: an ordered structure with stated laws, and the instance binary64 in `UnigramFloatProps.v`
     (`ln`, `exp` and rounding are arguments; C74 and `C75_counts` assume exact arithmetic; `digamma` is an argument); the suffix array of Unigram training: parts of the text;
   * `BinaryHeap::pop`: some maximal element; `sort_unstable_by`: some sorted permutation;
   * `rand`: any stream of draws;
   * rayon: any schedule that returns the results in the order of the inputs;
   * `RwLock::try_read` / `try_write`: may fail at any call;
   * serde_json: that a JSON value is written as a text and read back as the same value;
   * the file system: that a text written to a file is read back.

### Parts of the code that are modelled

| sources (under `tokenizers/src`) | model |
|---|---|
| `tokenizer/encoding.rs` | EncodingModel |
| `utils/truncation.rs`, `utils/padding.rs` | TruncPadModel |
| `tokenizer/normalizer.rs` | NormModel |
| `tokenizer/pattern.rs` | PatternModel |
| `tokenizer/pre_tokenizer.rs` | PreTokModel |
| `tokenizer/added_vocabulary.rs`, added tokens of `tokenizer/serialization.rs` | AddedModel |
| `tokenizer/mod.rs` (encode, decode, batches, post-processing, truncation and padding settings, decode streams) | TokenizerModel, StreamModel |
| `models/bpe/word.rs`, `models/bpe/model.rs` | BpeWordModel, BpeModel |
| `models/bpe/trainer.rs` | BpeTrainModel |
| `models/wordpiece/mod.rs`, `models/wordlevel/mod.rs` | WordPieceModel; as the model of a tokenizer (BertWordPieceTokenizer): WordTripModel, CharTripModel |
| `bindings/python/py_src/tokenizers/tools/visualizer.py` | VisualModel, VisualEncModel (not the style sheet and the display in notebooks) |
| `bindings/python/src/utils/serde_pyo3.rs` | PyReprModel |
| `bindings/node/src/tokenizer.rs` (options, settings, encode, encode_batch), `encoding.rs` (truncate, pad), `utils.rs`, `normalizers.rs` (bert_normalizer, strip_normalizer) | NodeModel |
| `bindings/node/src/tasks/tokenizer.rs`, locks of `tokenizer.rs`, `models.rs`, `trainers.rs` | NodeTaskModel |
| `bindings/python/py_src/tokenizers/implementations/byte_level_bpe.py`, `normalizers/__init__.py` | ImplModel |
| `bindings/python/py_src/tokenizers/implementations/bert_wordpiece.py` | ImplBertModel |
| `bindings/python/py_src/tokenizers/implementations/char_level_bpe.py` | ImplCharModel |
| `bindings/python/py_src/tokenizers/implementations/sentencepiece_bpe.py`, `sentencepiece_unigram.py` | ImplSpmModel |
| bindings/python/src/models.rs (constructors, attributes, pickles), the builders of models/*  | PyModelModel |
| bindings/python/src/encoding.rs, the serialization of tokenizer/encoding.rs | PyEncModel |
| bindings/python/src/trainers.rs (of UnigramTrainer only the constructor), the builders and the serialization of models/{bpe,wordpiece,wordlevel}/trainer.rs, the builder of models/unigram/trainer.rs | PyTrainerModel, PyUniTrainerModel |
| `models/unigram/{model,lattice,trie}.rs` | UnigramModel, MarginalModel, TrieModel |
| `models/{wordlevel,wordpiece,unigram}/trainer.rs` | TrainersModel, UnigramTrainModel |
| JSON of `normalizers/*.rs`, `pre_tokenizers/*.rs`, `processors/*.rs`, `decoders/*.rs` and of their wrappers | ComponentFilesModel |
| training in `tokenizer/mod.rs`, `utils/iter.rs`, the `Trainer` impls of BPE and word-level models | TokenizerTrainModel |
| `utils/parallelism.rs`, `child_after_fork` of the Python bindings | ParallelModel |
| `bindings/python/src/tokenizer.rs`: inputs of `encode`, `encode_batch` and their variants | PyInputModel |
| `bindings/python/src/utils/normalization.rs`: `PyRange`, `slice` | PyNormModel |
| `bindings/python/src/utils/iterators.rs`, `train_from_iterator` of the Python bindings | PyIterModel |
| `bindings/python/src/utils/mod.rs`: `RefMutContainer`, `RefMutGuard` and their uses | PyRefModel |
| `bindings/python/src/tokenizer.rs`: the lock of `PyTokenizer` and the GIL | PyLockModel |
| `bindings/python/src/{normalizers,pre_tokenizers,processors}.rs`: the shared components, `PySequence`, attributes, pickling; `tokenizer.rs`: setters and getters of components | PyShareModel, PyInPlaceProps |
| `bindings/python/src/tokenizer.rs`: `PyAddedToken`, `enable_truncation`, `enable_padding`, their getters, `add_tokens`, `add_special_tokens` | PySettingsModel |
| `tokenizer/serialization.rs`, JSON of `utils/{truncation,padding}.rs`, saving and loading in `tokenizer/mod.rs` | TokenizerFilesModel |
| `models/mod.rs`, `models/*/serialization.rs`, `save` and `read_file` of the models | ModelFilesModel |
| `TrainerWrapper` of `models/mod.rs` | TrainSaveModel |
| `utils/cache.rs` and its users | CacheModel |
| `normalizers/*.rs` | NormalizersModel |
| `pre_tokenizers/*.rs` | PreTokenizersModel, ByteLevelModel |
| `processors/*.rs` | ProcessorsModel, TemplateTextModel |
| `decoders/*.rs` | DecodersModel |
| whole pipelines (models and normalizers as parts of a tokenizer) | RoundTripModel, SpmTripModel |

### Parts that are not modelled

* The bindings (Python, Node) except the parts named in the table, `utils/from_pretrained.rs` (network), `utils/progress.rs`, `cli`, logging, `Display`.
* `utils/onig.rs`, `utils/fancy.rs` (the engines are oracles), rayon (its results come in the order of the inputs; reductions are trees).
* The suffix array library (`esaxx_rs`) of the seeds of Unigram training: which parts it lists, with which counts, is an argument.
  In C64 the whole numeric part of Unigram training is an argument, in C75 it is modelled.
* serde's other spellings of the JSON of components (structs as arrays, unit variants as objects, repeated fields); serde_json's limit of
  127 on the depth of a file, which a Sequence in a Sequence in ... can exceed.
* The memory and time used.


## Properties: what is modelled, how it is proved

Status and theorem names are those of MANIFEST.json. A theorem named `…_refuted` is a proof that a natural
stronger claim is false of the code, with its witness.

| id | property | model files | how it is proved | status |
|---|---|---|---|---|
| C01 | Truncation windows tile the sequence | EncodingModel | relational spec of a tiling by windows; induction over the number of windows | proved |
| C02 | Per-token arrays stay parallel | EncodingModel | invariant `parallel`, recursive over overflowing encodings, preserved by each operation, lifted to histories | proved |
| C03 | Truncation panics exactly when the stride is too large | EncodingModel | the assert is an explicit `Panic`; case analysis, loop termination by measure | proved |
| C04 | Padding keeps content and reaches the target | EncodingModel | structural induction over nested overflowing encodings | proved |
| C05 | Batch padding makes the batch rectangular and minimal | TruncPadModel | arithmetic on rounding up, maximum over the batch | proved |
| C06 | Merging concatenates and keeps each token's provenance | EncodingModel | list algebra over token rows; overflow combinations as a product up to permutation | proved |
| C07 | Position lookups on an encoding are mutually consistent | EncodingModel | lookups specified by first index / existence statements | proved |
| C08 | Token-to-sequence is defined exactly on the tokens of a sequence | EncodingModel | range theorem and a refutation at index = len | proved |
| C09 | Pair truncation respects max_length, is exact and fair | TruncPadModel | `lia` on the arithmetic core, C01 for the kept parts | proved |
| C10 | Truncation settings accepted by with_truncation never make encoding panic | TokenizerModel | exact characterisation for single texts, sufficient bounds for pairs, refutations | proved |
| C11 | Encoded length never exceeds max_length | TokenizerModel, ProcessorsModel | composition of C09 and C45 | proved |
| C12 | Alignment invariant of NormalizedString | NormModel | invariant over histories of the mutating operations | proved |
| C13 | Offset conversion between normalised and original text is sound | NormModel | induction over the alignments | proved |
| C14 | Slicing keeps text, alignments and position together | NormModel | from C13 | proved |
| C15 | Splitting partitions the text according to the delimiter behaviour | NormModel | fold invariants for the five behaviours | proved |
| C16 | Patterns cover the whole string with contiguous ordered slices | PatternModel | loop invariant; refuted for the empty string pattern on multi-byte text | proved |
| C17 | Normalisation operations never panic | NormModel, NormPanicSpec (the characters in front, when an operation panics, what is written) | invariant that guards every operation; for the exact condition every state splits into a front of empty ranges and a rest of wide ones, and the transform loop panics iff its changes overrun the rest | proved |
| C18 | Byte and character ranges convert back and forth | NormModel | induction over characters | proved |
| C19 | Filtering and stripping keep the alignment of what remains | NormModel | induction over characters | proved |
| C20 | Replace substitutes every match and nothing else | NormModel | induction over the match list | proved |
| C21 | Pre-tokenisation never loses or invents text | PreTokModel | fold over splits; composition of passes | proved |
| C22 | Encodings built from pre-tokenised text are faithful | PreTokModel | from C13 | proved |
| C23 | Character offsets are the character positions of the byte offsets | PreTokModel | induction over characters | proved |
| C24 | Early-exit tokenisation gives the same truncated result | PreTokModel, TokenizerModel | prefix/suffix lemmas over splits, lifted to whole inputs | proved |
| C25 | Added-token ids are stable and unambiguous | AddedModel | invariant over histories | proved |
| C26 | Adding tokens is idempotent and counts new tokens | AddedModel | induction over the token list | proved |
| C27 | Added-token extraction partitions the text | AddedModel | loop invariant over an oracle of leftmost-longest matches; refuted without the guard | proved |
| C28 | Added tokens match leftmost-longest and respect their flags | AddedModel | loop invariant | proved |
| C29 | Vocabulary size equals the number of tokens in the vocabulary | AddedModel | cardinality lemma over histories | proved |
| C30 | Decoding skips special tokens and only them | AddedModel | list lemma; meaning of the special set by history | proved |
| C31 | Streaming decode reproduces the batch decode | StreamModel, DecodersModel | invariant over the step function, for every decoder that is steady or local | proved |
| C32 | BPE merging computes the canonical greedy BPE segmentation | BpeWordModel, BpeModel | simulation between the queue and the naive greedy algorithm | proved |
| C33 | BPE tokens cover the word in order | BpeModel | sums of lengths; refuted where characters are dropped or reordered | proved |
| C34 | BPE dropout only selects among valid segmentations | BpeWordModel | invariant of the loop for any stream of draws | proved |
| C35 | Model caches are invisible | CacheModel | invariant over histories: every cached value is the function of its key | proved |
| C36 | BPE construction validates its merge table | BpeModel | induction over the merges | proved |
| C37 | BPE training yields a usable, bounded vocabulary | BpeTrainModel | loop invariant of training | proved |
| C38 | BPE training merges the most frequent pair | BpeTrainModel | loop invariant: recorded counts and places against the words | proved |
| C39 | Training counts do not depend on chunking or order | BpeTrainModel | fold over a commutative monoid, any reduction tree | proved |
| C40 | WordPiece is greedy longest-match-first | WordPieceModel | loop invariant against an inductive greedy specification | proved |
| C41 | WordLevel is total | WordPieceModel | case analysis | proved |
| C42 | Unigram finds a best-scoring segmentation | UnigramModel | dynamic programming invariant over an arithmetic with stated laws; laws proved of binary64 with Flocq | proved |
| C43 | Unigram pieces concatenate to the sentence | UnigramModel | invariant of back-pointers, of sampling and of n-best | proved |
| C44 | The prefix trie finds exactly the vocabulary prefixes | TrieModel | induction over the query | proved |
| C45 | Post-processors add exactly the announced tokens | ProcessorsModel | lengths of layouts | proved |
| C46 | Post-processor layout, masks and type ids | ProcessorsModel | layout equations, position by position | proved |
| C47 | Byte-level alphabet is a bijection and decodes back | Utf8, ByteLevelModel, DecodersModel | finite bijection over 256 bytes, UTF-8 round trip by arithmetic | proved |
| C48 | Byte-fallback tokens decode to the original bytes | DecodersModel | relation of runs | proved |
| C49 | Metaspace decoding inverts Metaspace pre-tokenisation | PreTokenizersModel, DecodersModel | string lemmas over any cut into tokens | proved |
| C50 | CTC decoding collapses repeats and drops padding | DecodersModel | run specification | proved |
| C51 | Decoders never fail, except BPE and Strip on known inputs | DecodersModel | totality and exact panics | proved |
| C52 | WordPiece decoding glues continuation pieces | DecodersModel | list lemma | proved |
| C53 | FixedLength and script pre-tokenizers keep all text | PreTokenizersModel | chunk lemma; refuted for scripts and length 0 | proved |
| C54 | Trimming offsets only shrinks them | ProcessorsModel | arithmetic over leading and trailing blanks | proved |
| C55 | Batch encoding equals individual encoding then padding | TokenizerModel | index-tagged results under any schedule | proved |
| C56 | Saving and loading a BPE model preserves it | ModelFilesModel | round trip of the JSON value | proved |
| C57 | Saving and loading a tokenizer preserves added tokens | AddedModel | round trip over histories | proved |
| C58 | Unigram byte fallback and unknown handling keep positions | UnigramModel | sums of lengths | proved |
| C59 | Trainers respect the requested vocabulary size and number tokens without gaps | TrainersModel | loop invariants; refutations | proved |
| C60 | BERT normalisation isolates every CJK ideograph and removes control characters | NormalizersModel | character classes and a character-by-character relation | proved |
| C61 | Mapping, case changes, prepending and appending keep every character's range | NormModel | equations between operations | proved |
| C62 | What a whole encoding contains | TokenizerModel | end-to-end composition of C12-C24, C45, C46 | proved |
| C63 | Encoding repeats the segmentation of training | BpeTrainModel, BpeModel | composition of C32, C37, C38 | proved |
| C64 | A trained model knows the words it was trained on | TrainersModel | composition with C40-C43 | proved |
| C65 | Every pre-tokenizer cuts the text as documented and never fails | PreTokenizersModel | relation of pieces for each pre-tokenizer | proved |
| C66 | Saving and loading any model preserves it | ModelFilesModel | round trip of the JSON value through the wrapper | proved |
| C67 | Vocabulary files are read back as written | ModelFilesModel | round trip of the files; refutations | proved |
| C68 | Every normalizer does what it documents and keeps the alignment | NormalizersModel | relation between the ranged characters before and after, by induction over the normalizer | proved |
| C69 | A byte-level BPE tokenizer loses nothing | RoundTripModel (BPE as the model of a tokenizer), over TokenizerModel, AddedModel, PreTokenizersModel, BpeModel, DecodersModel, ProcessorsModel | composition: extraction gives text sections and added tokens (C27, C28), pre-tokenizing gives pieces whose concatenation is the byte-level image (C65), the BPE tokens of a piece concatenate to it (C33), their ids are named after them (C25), the decoder inverts the image (C47); layouts of C46 for the special tokens | proved |
| C70 | A byte-fallback BPE tokenizer (Llama style) loses nothing | SpmTripModel (a normalizer as the function of a tokenizer), over TokenizerModel, AddedModel, NormalizersModel, BpeModel, DecodersModel, ProcessorsModel | composition: the normalizers of a section give mark + text with marks for spaces (C68), the BPE tokens of a section spell it (leaves of merges by induction over the merge steps: a known character, or the byte tokens of an unknown one), byte tokens are never merged, ByteFallback inverts their runs (C48), Fuse and Strip remove one space; cuts at added tokens by C28 | proved |
| C71 | Saving and loading normalizers, pre-tokenizers, post-processors and decoders preserves them | ComponentFilesModel (components as data, their JSON values, the readers of serde) | readers depend on an object only through its fields (same result for any order); induction over nested sequences; induction over JSON values for what loading can return and for panics | proved |
| C72 | A tokenizer saved and loaded again answers every call alike | TokenizerFilesModel (a tokenizer as data: components of ComponentFilesModel, models of ModelFilesModel, AddedModel; its JSON value; the visitor of serde) | composition of C65/C71 for the parts; the visitor's answer depends only on the fields, not their order; invariant over the calls that made the tokenizer (each added id has its token, special set, classified lists are permutations), and adding the saved tokens in order of id gives a vocabulary with the same maps; every observer of a tokenizer factors through these; induction over fields for what loading accepts and for panics | proved |
| C73 | The n best segmentations of a text are the n best segmentations | UnigramModel (nbest, nbest_loop, extend, take_best, viterbi) | the loop is a big-step relation; suffix-antichain invariant for distinctness; coverage invariant (every complete path is listed or ends like an element of the agenda) for completeness; a weight (3*2^(i-1) for a hypothesis starting at character i) that decreases with each step bounds the number of steps and the size of the agenda; Viterbi's back-traced scores bound and attain the best completion, hence order and optimality | proved |
| C74 | Expected counts and samples of a Unigram model are those of its segmentations | MarginalModel (log_sum_exp, the sweeps and counts of populate_marginal, the weights of sample), UnigramModel (lattice, sample loop) | specification: sums of products over the list of all segmentations, in any commutative semiring with inverses of exponentials; the sweeps are shown to leave in the cell of a node the sum over the segmentations of the text before it (after it); occurrences of a token in segmentations are put in bijection with nodes; a draw has chance weight over sum of weights, the chances along a path telescope; the laws are proved for real numbers (standard library's Reals) and for fractions, where the examples are computed | proved |
| C75 | Training a Unigram model seeds, counts, prunes and keeps the pieces that the corpus calls for | UnigramTrainModel (make_seed_sentence_pieces, run_e_step, run_m_step, prune_sentence_pieces, do_train), TrainersModel (finalize, the loop), MarginalModel, UnigramModel (lattice) | the words are summed in any tree of chunks, as rayon may; the E step is the sum of the expected counts of C74 over the corpus; pruning is characterised by the segmentation Viterbi chooses for each word (law-free), by the second best segmentation of each piece (C73) and by the loss, defined on lists of words and uses, of replacing the piece by it; learnt pieces by induction over rounds and sub-iterations; never-ending training by an invariant: the pieces are always the characters | proved |
| C76 | A template written as text means what is documented | TemplateTextModel (splitting, u32 parsing, pieces, templates, the builder with texts), ProcessorsModel | grammar of pieces as an inductive relation, equivalence of the parser with it; splitting inverts joining; decimal numbers through the standard library's Decimal; the documented templates through the layouts of C46 | proved |
| C77 | Training a tokenizer trains it on the words it will be asked about | TokenizerTrainModel (feeding, lines of a file, the shunt of errors, train, train_from_files, the trainers of BPE and word-level models), TokenizerModel, BpeTrainModel, TrainersModel, AddedModel | the words of a sequence are the texts the tokenisation step asks about: the steps before it do not depend on the model; lines by induction over an inductive specification of the lines of a text and the UTF-8 encoding; counts through C39, order through C38 and C59, ids through the histories of C25, encodings through C64 | proved |
| C78 | Parallelism is used when it was asked for, and not after a fork | ParallelModel (the flag, the record of use, the environment, the iterators of parallelism.rs as steps of threads, the fork handler) | runs of any number of threads as functions of a schedule; invariants by induction over the schedule (threads that are about to start a recorded iterator imply the record); a single thread is compared with a function of its commands | proved |
| C79 | A Metaspace tokenizer gives back the text it was given | TokenizerModel, AddedModel, PreTokModel (Metaspace), UnigramModel, BpeModel, DecodersModel, ProcessorsModel | sections of the text and words of a section through C49 (cutting at marks, decoding any cut); tokens spell words; added tokens through the histories of C25; Unigram through C43 and C58 (no unknown piece when all characters are known), BPE through C33 and C34 | proved |
| C80 | A trained tokenizer can be saved, and loads as the same tokenizer | TrainSaveModel over TokenizerTrainModel, BpeTrainModel, TrainersModel, UnigramTrainModel, TokenizerFilesModel | training replaces the model and adds the special tokens, so the result is one that the calls of C72 can make; the trained model is sound for saving by the invariants of C37, C59, C63 and C75 (ids dense, merges distinct, texts Unicode) | proved |
| C81 | Python inputs mean what is documented | PyInputModel (Python objects as a tree; the extraction of PyO3 as functions), PyInputSpec (the documented inputs as inductive relations) | each reader accepts exactly the objects of its relation, so the first form that is accepted is the only one; witnesses for what differs | proved |
| C82 | Indexing a NormalizedString follows Python | PyNormModel, PyNormSpec (Python's rule for indices and slices) | the range given to the slice is the one of Python's rule; C04's description of a slice of an aligned normalized string gives the rest; witnesses for what differs | proved |
| C83 | Training from a Python iterator uses every text once and in order | PyIterModel (the buffered iterator as a state with an event list), PyIterSpec (the texts of an iterator, and where it stops) | invariant of the buffer: what was delivered, the buffer and the rest of the iterator make up all items; induction on the calls of next | proved |
| C84 | Objects lent to Python callbacks are never used after the call | PyRefModel (a machine with mutexes, borrow flags, exception modes and stacks of callbacks for any number of threads), PyRefSpec | invariant: the number of pending uses on a stack is 1 exactly if the thread holds the mutex, a held mutex means a valid object, an ended loan means no pointer or a poisoned mutex; for one thread a second invariant on nested uses and a decreasing size; witnesses for the deadlocks and the abort | proved |
| C85 | A tokenizer shared by Python threads behaves as if calls ran one at a time, without deadlock | PyLockModel (threads with a GIL and a read-write lock; the bodies of calls are trees of reads and writes), PyLockSpec (calls alone and one after the other) | invariant: the log of returned calls replays to the state, up to what the one writer in progress has still to do, and readers in progress give what they give from the start; progress by a decreasing sum over the threads; witnesses for the deadlocks | proved |
| C86 | Truncation and padding set from Python are what the arguments say, and can be read back | PySettingsModel (kwargs as lists of names and values, the loops over them), PySettingsSpec (what each argument means) | the loop over the arguments computes each field from the argument of its name (induction, distinct names); meaning is invariant under permutation; the dict that is read means the parameters | proved |
| C87 | AddedToken objects mean what their arguments say, survive pickling and are added as such | PySettingsModel (tokens with optional flags, a heap of token objects), PySettingsSpec | the same loop lemma for tokens; induction on the items with the heap generalised; witnesses for what is false | proved |
| C88 | Components are shared between Python objects and tokenizers, and copies are not | PyShareModel (a heap of locked components; objects and tokenizers point into it; every call a step), PyShareSpec (what an object is made of, what a call may change), PyInPlaceProps (a change in place of a tokenizer of TokenizerFilesModel) | invariant over histories that pointers are valid; framing lemma: a step changes only the cells that it names; use of an object is a fold over its parts; for tokenizers the refreshed tries are compared with the kept ones | proved |
| C89 | Decoding what a BERT tokenizer encoded gives back the words of the text | WordTripModel (WordPiece as the model of a tokenizer of TokenizerModel), WordTripSpec (the words of a text, the sentence they are set as), on top of the models of normalizers, pre-tokenizers, WordPiece, added tokens and decoders | the text is one section (no added token); the splits of the pre-tokenizer are the words and each is tokenized alone; the tokens of a word are decoded to it by induction over its pieces; a word that is not empty and has no white space and is one punctuation character or none is changed by no cleanup rule; reading the sentence again cuts it at the same places | proved |
| C90 | Decoding what a BPE tokenizer with an end of word suffix encoded gives back the words | the models of BPE, of the BPE decoder, of pre-tokenizers and of tokenizers; CharTripSpec (the alphabet of a vocabulary, words after which the suffix is found once) | C33: the tokens of a word are its pieces, the last one with the suffix; replacing the suffix in them gives the word and a space; then as C89 | proved |
| C91 | A WordLevel tokenizer has one id for each word, and decoding shows the words | CharTripModel (WordLevel as the model of a tokenizer), CharTripSpec | each word has one token; the sections and words as for C89 | proved |
| C92 | The page of EncodingVisualizer shows the text, its tokens and annotations | VisualModel (states of characters, grouping, colours, escaping, the loop over spans), VisualEncModel (what is taken of an encoding), VisualSpec (a reader of HTML; which tags a character should be in) | invariant of the loop: what has been written reads as the characters so far inside the open annotation; C92_encoded: the offsets in characters stay inside the text through every post-processor, truncation and padding | proved |
| C93 | repr and str of the Python objects write the value | PyReprModel (the serializer with its counters, levels and the test of the last character), PyReprSpec (expressions and their texts, which expression a value should have) | induction over values: serializing appends the text of the expression, keeps the counters of the levels up to the current one, and ends with no opening bracket; C93_same: texts of expressions are prefix-free before a delimiter, by induction on their length | proved |
| C94 | Settings of the Node.js bindings mean what they say and what they mean in Python | NodeModel (options, their conversions, the calls, slices), NodeSpec (what options ask for, the keyword arguments that say the same in Python, JavaScript's slice) | case analysis of options against the Python model of C86, C87 and C81; induction over histories of calls; slices by C18 | proved |
| C95 | Promises of the Node.js bindings resolve, and to results of one state of the tokenizer | NodeTaskModel (the JavaScript thread, tasks, the locks of tokenizers and models, workers), NodeTaskSpec (a batch at one state, programs that await what they made, the end) | invariant over executions relating every filled slot to a state of the trace; a measure that every step decreases; case analysis of who waits for whom; the deadlock by induction on the number of workers | proved |
| C96 | The ready-made ByteLevelBPETokenizer loses no text | ImplModel (the constructor and the training of ByteLevelBPETokenizer, on the tokenizer of TokenizerFilesModel and TrainSaveModel), ImplSpec (options that change no text, calls that add tokens, texts that come back) | an invariant of the configuration (byte-level parts, a BPE with every byte and empty affixes, a history of additions) from C30/C89, kept by additions; training through C37 and C77, saving through C80 | proved |
| C97 | The ready-made BertWordPieceTokenizer marks texts and gives their words back | ImplBertModel (the constructor and the training of BertWordPieceTokenizer, on the tokenizer of TokenizerFilesModel and TrainSaveModel), ImplBertSpec (sound vocabularies, special tokens like [UNK], tokens that may be added) | an invariant of the configuration (BERT parts, a WordPiece model, a history of additions) kept by the calls of the constructor and by additions; markers through C62, words through C89; training through C37 and C77, and every character of a training word has its entry, so the greedy segmentation does not get stuck | proved |
| C98 | The ready-made CharBPETokenizer gives the words of a text back | ImplCharModel (the constructor and the training of CharBPETokenizer, on the tokenizer of TokenizerFilesModel and TrainSaveModel), ImplCharSpec (the normalizer the options ask for, tokens that may be added) | an invariant of the configuration (the parts, a BPE model with suffix, a history of additions) kept by the calls of the constructor and by additions; words through C90, where special tokens are shown not to be among the tokens of words; training through C37 (rebuilding the trained model from its merges) and C77, and every character of a training word has its entry, with the suffix at the end | proved |
| C99 | The ready-made SentencePiece tokenizers give texts back | ImplSpmModel (the constructors, from_spm and the training of both tokenizers, on the tokenizer of TokenizerFilesModel and TrainSaveModel), ImplSpmSpec (the normalizers, what the model sees of a text, tokens that may be added) | an invariant of the configuration kept by the calls of the constructors, by training and by additions; the words of Metaspace put together are the marked text, so the decoder gives the text back whenever the model spells parts of it (C49, C65); BPE spells by C33, Unigram by C43; training through C37, C75 and C77: counted words are parts of the texts the model sees and have all their characters; special tokens are no pieces, so ids are unique | proved |
| C100 | Saving is deterministic, and a loaded file is saved as it was | the models of C66, C67, C71 and C72; FixFileSpec (the same tokenizer with its hash maps in another order; the added tokens a file lists) | a list sorted strictly is determined by its elements: merges in the order of ranks (the ranks of a loaded model are the places of the old ones), entries by key, added tokens by id; the writer of vocabularies depends on look-ups only; what is loaded is one of the tokenizers that are made, with valid parts, so C72 applies to it again | proved |
| C101 | Training through a tokenizer follows the settings | the models of C37, C59, C77, C80 and C96 to C99; ImplTrainSpec (learnt from counted words with these settings; ids of the special tokens; number of tokens) | the words that are counted are those of C77; the run of the trainer is that of C38, for the trainer that each class builds, written out; added tokens that are in the model keep its ids (C25) and make get_vocab no larger, as every entry of the added vocabulary comes from the list | proved |
| C102 | Models made from Python mean what their arguments say, and survive pickling | PyModelModel: the arguments and the conversions of PyO3, the loops over the keyword arguments, the builders, the setters, the uses of one object with its cache (on top of CacheModel) and the pickles (ModelFilesModel); PyModelSpec (what a keyword argument says; the last value assigned; expected answers) | induction over the keyword arguments, one after the other, with the fields independent of each other; the uses by the invariant of C35, one use at a time; the pickles by C66, as the settings other than the prefix do not enter the merges | proved |
| C103 | Encodings as Python objects: arguments, copies and pickles | PyEncModel: the conversions of the arguments, the loop over the keyword arguments of pad, the lookups, the derived serialization (integer keys as texts, the recursion limit of serde_json), and the objects of a program under calls; PyEncSpec (what arguments mean, encodings equal up to the order of their ranges, how deep they are nested) | the arguments as in C102; the depth of a pickle is 2n+2 or 2n+3 for an encoding nested n deep, and reading inverts writing, both by induction over nested encodings; histories by an invariant over the calls | proved |
| C104 | Trainers made from Python mean what their arguments say, and survive pickling | PyTrainerModel: the values given from Python, the store of AddedToken objects, the loops of the constructors, the setters and getters, and the derived serialization of the trainers; PyTrainerSpec (the documented attributes of each class, what values mean, which objects are made special) | one argument acts on one attribute as its meaning says (by cases over the names), then induction over the arguments; the special tokens by induction over the list with the store changing; histories by an invariant; pickles by computation on the fields and induction over tokens and words | proved |

Notes (limits of each claim):

* **C01** windows as a relational tiling spec over the zipped token table; both directions
* **C02** histories of truncate/pad/merge/set_sequence_id/set_type_ids; post-processor preservation is in the processor theorems
* **C03** if and only if
* **C04** also a finding: on encodings without ranges pad positions are reported as sequence 0
* **C05** least multiple; multiple 0 included
* **C06** rows, association, neutral element, ranges for disjoint sequence ids, overflow product as a permutation
* **C07** all six lookups, for well-formed ranges; word_to_tokens for non-decreasing word ids
* **C08** stated with the guard that excludes index = len on encodings without ranges; the unguarded claim is refuted
* **C09** exact sum, fairness, kept prefix/suffix, error conditions iff, no panic without stride
* **C10** Exact characterisation for single texts, sufficient bounds for pairs; four families of accepted settings that panic are exhibited (…_refuted).
* **C11** The overflow claim needs room for a token of each sequence cut; C11_overflowing_refuted shows why.
* **C12** every history of the eleven mutating operations, Unicode tables as oracles; only explicit transform_range calls must respect their documented contract (refuted without it)
* **C13** both directions characterised byte by byte; identity on untouched text; refused ranges
* **C14** non-empty ranges in both referentials, None iff, never panics; finding: empty slices get a wrong position (refuted)
* **C15** exact pieces for the five behaviours, as parts of the parent with their position, and as text
* **C16** regex engine as an oracle (ordered non-overlapping boundary matches); the empty string pattern is refuted on multi-byte text and proved on one-byte text
* **C17** "Never" is false of the code (C17_panic_refuted, C17_duplication_refuted, C17_prepend_refuted, C17_clear_refuted); the exact condition is proved for every operation after every history (C17_exact, C17_history), and histories without an insertion in front never panic (C17_safe_histories).
* **C18** both directions, inverse, get_range_of; finding: the empty range at the end of a string is refused and inverted ranges panic
* **C19** for texts whose first character has a non-empty range (all safe histories); refuted without it
* **C20** exact text and alignments
* **C21** any number of cutting passes; plus insideness for passes that also rewrite text
* **C22** for tokens covering non-empty ranges; finding: empty token ranges are reported at normalised positions
* **C23** for ranges starting before the end of the text; refuted at the very end and for normalised offsets
* **C24** Split level (C24_right, C24_left) and whole inputs (C24_encode); C24_odd_pair_refuted shows the excluded case differs.
* **C25** stability over any model; unambiguity over models whose ids are dense (refuted for models with gaps); read-back up to normalised forms (exact round trip refuted with a normalizer, proved without)
* **C26** count over any list; idempotence for lists without two different tokens of one content (refuted otherwise)
* **C27** when no right-stripping token meets patterns starting with whitespace; refuted (overlap, panic) otherwise
* **C28** leftmost-longest matches, flags, patterns searched; same whitespace condition as C27
* **C29** any history, any model with distinct keys
* **C30** special = once added as special (refuted for un-specialised and normalised-name tokens)
* **C31** C31_steady: exact for no decoder, ByteLevel, WordPiece, Metaspace, CTC, Fuse, Replace; C31_local: for local decoders (ByteFallback, BPE) as long as no call fails; refuted beyond: ByteFallback stream can error for ever, BPE decoder panics on no token, Fuse+Strip and the Llama decoder silently give another text
* **C32** For every heap tie-breaking, word and table with an additive weight; instantiated to every table made by the builder from a vocabulary with distinct ids. The distinct-ids hypothesis is needed: C32_distinct_ids_needed_refuted.
* **C33** Contiguity always; the end and the texts under the coverage condition of the statement. Where it fails (no unknown token, byte fallback with a pending unknown or with a prefix) the refuted theorems give witnesses.
* **C34** All sequences of draws and heap tie-breakings.
* **C35** The thread-local cache of BPE under any interleaving of calls, builds, clones, clears, resizes and assignments; the shared cache of Unigram for any cached computation. C35_bpe_stale_refuted: assigning a public field that decides the words without clear_cache returns stale tokens. C35_retrain_refuted, C35_retrain_panic_refuted: training a model that was used keeps the cache.
* **C36** Acceptance, table and an exact characterisation of the panics, which are reachable (C36_never_panics_refuted).
* **C37** for corpora below 2^31/5 characters; refuted beyond: a suffix adds forms of characters over the bound and can leave a rank out; two characters are merged whatever max_token_length
* **C38** unconditional without prefix and suffix, else as long as results of merges are new; C38_wrap_refuted: counts of 2^31 wrap; C38_order_refuted: with a suffix ids depend on hash order
* **C39** any reduction tree, any order; composed with C38 into C39_training
* **C40** Greedy longest-match, uniqueness of the greedy split, the unknown cases, totality and offsets.
* **C41** One token that covers the word, or the missing-unknown error.
* **C42** Both searches, for any arithmetic with the listed laws, proved of IEEE 754 binary64 log-probabilities in UnigramFloatProps.v (which brings in the axioms of the standard library of reals). The lattice search needs an unknown token, see C43_sampling_without_unk_refuted.
* **C43** All three ways of choosing a path. Two parts of the claim are refuted: C43_only_when_needed_refuted (error though no unknown is needed) and C43_sampling_without_unk_refuted.
* **C44** Exactly the stored tokens that are prefixes, in increasing length.
* **C45** For BERT, RoBERTa, ByteLevel, builder-made templates using each sequence once, and sequences of them in which only neutral processors follow a template (accurate): the announced count is right for the output and every overflowing encoding, with and without special tokens, and the input tokens are kept in order. The unrestricted statement is refuted for: processors after a template, two templates, $B in a single template, deserialised templates, setters, sequences used twice.
* **C46** Layouts of BERT, RoBERTa, ByteLevel and templates, position by position, for the output and all overflowing encodings. Refuted parts: type ids of overflowing encodings for templates whose written type ids differ from the sequence number, RoBERTa without special tokens on pairs, ByteLevel after a template.
* **C47** Any cut of the image, mixed with tokens outside the alphabet. Two limits refuted: the added prefix space stays, and a token of alphabet characters is always read as bytes.
* **C48** Exact relation; also '<0x+N>' is read as a byte token (refuted as an exactness claim).
* **C49** For split sections cut into tokens in any way, or any cut whose first token has the mark only in front. Unsplit sections kept as one token lose every space, and one leading space is lost: refuted with witnesses.
* **C50** Runs are unique; without cleanup the delimiter is kept (witness).
* **C51** Never an error; panics exactly for BPE on an empty list and Strip on a token of too few copies of its character.
* **C52** Words that start with the continuation prefix, or an empty prefix, are shown not to come back.
* **C53** refuted parts: FixedLength(0) panics on any text (C53_zero_refuted); UnicodeScripts drops the characters before the first one with a script of its own (C53_scripts_lost_refuted)
* **C54** Also an exact description of the trimmed range. char::is_whitespace is an arbitrary predicate.
* **C55** Every schedule; padding applied twice (by encode and by encode_batch) is shown equal to padding once.
* **C56** The JSON value is the model of the text: that serde_json writes and reads it back is trusted. Duplicate ids and the id 2^32-1 are refuted.
* **C57** added tokens saved and loaded over the same dense model; special set and encode_special_tokens refuted
* **C58** The tokens of every piece, their ranges and success.
* **C59** WordLevel needs distinct special tokens that are no words (C59_wordlevel_gap_refuted); Unigram exceeds the size when characters fill it (C59_unigram_size_refuted) and panics with more special tokens than the size (C59_unigram_special_refuted). Seeding, expectation counts, digamma and pruning of Unigram are arguments of the model.
* **C60** Isolation for every handled ideograph with any options (table hypotheses only when accents or case change), cleaning, and the refutation: U+2B820-U+2B91F are forgotten by the code.
* **C61** finding: prepend("") is not the identity
* **C62** for every tokenizer whose parts behave (stated as `sound`); two refuted variants record encode_fast's lost type ids and the unmarked overflowing encodings
* **C63** without prefix and suffix
* **C64** false for WordPiece trained without prefix or with suffix (C64_wordpiece_prefix_refuted, C64_wordpiece_suffix_refuted)
* **C65** regex engines, Unicode tables and the script table are arguments; Metaspace with prepend scheme First is described up to whether it puts the replacement (C49 says when)
* **C66** All four models and the wrapper, with and without the field type. Non-finite Unigram scores are refuted.
* **C67** Files as values and texts; the conditions on lines are each shown necessary by a refutation.
* **C68** Every normalizer and sequence of them, characters with their ranges; hypotheses (non-empty prefix, no empty match at the start, documented format of normal forms) shown necessary by refutations.
* **C69** Whole pipeline, total: encode succeeds and decode returns the text; with special tokens for Bert, Roberta, ByteLevel and template post-processors; each hypothesis shown necessary by a refutation.
* **C70** Whole pipeline, total, for every text; exact result when added tokens or marks are written in the text; special tokens around the text for all post-processors of C46; each hypothesis shown necessary by a refutation.
* **C71** All kinds, any nesting of sequences, any order of the fields, with and without the optional field type; what is loaded is always valid; the only panic is a bad Precompiled. Regex engine, charsmap decoding and JSON text are arguments or trusted; serde's other spellings of structs (arrays) are not modelled.
* **C72** Any model, components, added tokens, truncation and padding, any order of the fields. With encode_special_tokens on, or one content added with different flags, the loaded tokenizer differs (refuted with witnesses). The JSON text (and serde_json's depth limit of 127) and the Aho-Corasick builder's answer are arguments or trusted.
* **C73** Termination, distinctness and completeness for any scores whatever (NaN included); order and optimality when the scores of the tokens inside the text are comparable and added exactly (f64 rounding can swap near-equal totals). Completeness and optimality up to 16 characters: beyond, the agenda may exceed 100000 entries and is cut to min(512, 10 n).
* **C74** Exact arithmetic is a set of laws (exact_marith), satisfied by the real numbers (C74_real_laws) and by positive fractions; f64 rounding is not bounded. unk_apart: the text of the unknown token, where it occurs in the sentence, begins and ends with characters that are tokens; without it the sums are wrong (C74_unknown_refuted). Smoothing parameters other than 1 do not give chances proportional to powers of the likelihoods (C74_smoothing_refuted). Random numbers are draws with given weights.
* **C75** Exact arithmetic for C75_counts, exact sums for the optimality part of C75_prune; the other parts hold for any arithmetic. The hypotheses hold for the real numbers (C75_real_laws). The suffix array library and digamma are arguments. Refuted: training always ends without panic (C75_unk_refuted, C75_endless_refuted).
* **C76** str::split and u32::from_str of the core library are modelled by hand. RoBERTa's equivalence is about the main encoding (type ids of overflowing encodings can differ, C46_template_types_refuted).
* **C77** Files, thread schedules, hash orders and the automaton builder are arguments; progress bars are left out. Refuted: an error of reading leaves the tokenizer unchanged (C77_reading_refuted), ids stay distinct when tokens were added before training (C77_retrain_refuted), only texts the model will be asked about are counted (C77_added_words_refuted).
* **C78** SeqCst loads and stores are steps of an interleaving; what rayon does and the locks of a forked pool are not modelled. Refuted for chunks: a parallel iteration over chunks is not recorded (C78_chunks_refuted), so the fork handler does not see it (C78_fork_chunks_refuted).
* **C79** The model is any function that spells the words of the text; C79_unigram and C79_bpe discharge this for Unigram (with the laws of the scores that C42 asks for) and BPE. The conditions are needed: C79_leading_space_refuted, C79_mark_refuted, C79_added_refuted, C79_unknown_refuted, C79_written_unknown_refuted.
* **C80** For tokenizers to which no token was added before training: C80_early_refuted shows that this is needed. The ids are assumed to fit in 32 bits. BPE trainers with a prefix or suffix are left out of C80_bpe (that no merge is listed twice is only shown without them); WordLevel special tokens are not words of the corpus (C64); Unigram pieces are distinct and their scores finite.
* **C81** The extraction of Python objects by PyO3 and numpy is modelled on the kinds of objects that the documentation names (str, list, tuple, arrays of dtype U and object, anything else). What is false of the code is proved as C81_two_words_refuted, C81_array_pair_refuted, C81_async_refuted and C81_array_refuted.
* **C82** Positive part: indices and bounds from the start for every text, and from the end for ASCII texts. Counting from the end is wrong for other texts, the step is ignored and empty slices are not empty strings: the four C82_..._refuted theorems.
* **C83** An iterator is the finite list of what its calls of __next__ do; iterators that never end are left out. C83_raise_refuted: an exception of the iterator loses texts that came before it, and the model has been replaced when it is raised. C83_generator says exactly which texts are used.
* **C84** For any number of threads and all interleavings, with or without the GIL. That PyO3 checks borrows of Python objects, turns panics into PanicException and resumes the panic when Rust gets this exception is part of the model. What is false of the code: C84_self_refuted and C84_threads_refuted (deadlocks), C84_abort_refuted (an exception in a callback of filter, map or for_each aborts the process).
* **C85** Calls are programs that look at and change the tokenizer step by step; any number of threads, all interleavings, with a lock that prefers writers or not. Panics inside calls (which poison the lock) are left out. What is false of the code: C85_train_refuted, C85_component_refuted and C85_self_refuted (deadlocks when Python code runs during a call).
* **C86** Values are None, bool, int, str or something else; what is printed is left out. With a max_length below the number of special tokens the subtraction of with_truncation overflows (a panic in builds that check). C86_length_refuted: with both length and its old name max_length the order of the arguments matters.
* **C87** Hashing is any function of the content. C87_copy_refuted: a copy made special differs from the original made special. C87_error_refuted: a failing add_special_tokens has changed token objects.
* **C88** Normalizers and pre-tokenizers (post-processors in the same way); what a component does is any function. Refuted: C88_hang_refuted (s[0] = s[0] never returns), C88_class_refuted, C88_twice_refuted, C88_loop_refuted, C88_stale_refuted (a normalizer changed in place leaves the added tokens behind), C88_trained_refuted (a shared model that is trained).
* **C89** Any normalizer; any pre-tokenizer (C89_words) and that of BERT (the others); no truncation and no padding. Refuted: C89_contraction_refuted (contractions are not rejoined by the cleanup), C89_prefix_refuted (wordpieces_prefix of BertWordPieceTokenizer reaches the decoder only).
* **C90** Any normalizer; any pre-tokenizer (C90_words), that of BERT and WhitespaceSplit; the words must be written in the alphabet of the vocabulary; no post-processor, truncation or padding (CharBPETokenizer sets none). Refuted: C90_blank_refuted (a text without words makes the decoder panic), C90_unknown_refuted (an unknown character at the end of a word glues it to the next), C90_suffix_refuted (the suffix in a word).
* **C91** Any normalizer and pre-tokenizer; no decoder, post-processor, truncation or padding. C91_bert_again is for the pre-tokenizer of BERT.
* **C92** Texts that are not empty; annotations inside the text; labels and unknown tokens without quotes. Refuted: C92_empty_refuted, C92_unk_refuted ("chunk" is marked as a special token), C92_label_refuted (labels are not escaped), C92_negative_refuted, C92_special_refuted (tokens of a template are not shown), C92_multi_refuted, C92_hue_refuted (19 labels).
* **C93** Less than 20 levels of nesting for str and 200 for repr; names of word characters; C93_same and C93_data for texts without quotes. Refuted: C93_cut_refuted (str panics when byte 100 of a text is inside a character), C93_quotes_refuted (quotes are not escaped), C93_limit_refuted (six elements: five and dots), C93_deep_refuted (20 levels).
* **C94** Numbers below 2^32. Refuted: C94_stride_refuted (a stride that is too large panics), C94_padding_refuted (setPadding() turns padding off), C94_pretokenized_refuted (isPretokenized is ignored), C94_direction_refuted (Encoding.truncate keeps the end by default), C94_slice_refuted (empty slices are errors), C94_bert_refuted (stripAccents is not on by default), C94_unset_refuted (methods of new Encoding() panic).
* **C95** Locks, threads of libuv and workers of rayon are modelled, with or without priority of writers; tokenizing a text is one step. Refuted: C95_late_refuted (a change between the call and the await may or may not be seen), C95_mixed_refuted (with a shared model a batch can mix two models), C95_deadlock_refuted (with a shared model, training while a batch is encoded can halt for ever).
* **C96** The constructor and train of ByteLevelBPETokenizer, with the tokenizer underneath as in C72/C80. Refuted: with a prefix space, lowercasing or a suffix the text changes (C96_space_refuted, C96_lower_refuted, C96_suffix_refuted); decode drops special tokens spelled in the text (C96_special_refuted); an added token of byte characters does not come back (C96_added_refuted).
* **C97** The constructor and train of BertWordPieceTokenizer, with the tokenizer underneath as in C72/C80; the sizes of the training corpus are bounded as in C37. Refuted: a vocabulary without the unknown token is accepted (C97_unk_refuted); wordpieces_prefix reaches only the decoder (C97_prefix_refuted); training a tokenizer that was given a vocabulary leaves the old ids of the markers in place (C97_stale_refuted).
* **C98** The constructor and train of CharBPETokenizer, with the tokenizer underneath as in C72/C80; the sizes of the training corpus are bounded as in C37. Refuted: decoding no ids, or only unknown tokens, panics (C98_nothing_refuted, C98_unknown_refuted; overflow checks on, see C51); a vocabulary without the unknown token is accepted (C98_unk_refuted); None for the suffix of train is an error (C98_no_suffix_refuted) and another suffix than the one of the constructor is left in the text (C98_suffix_refuted); training a tokenizer that was given a vocabulary leaves the old id of the unknown token in place (C98_stale_refuted).
* **C99** The constructors, from_spm and train of SentencePieceBPETokenizer and SentencePieceUnigramTokenizer, with the tokenizer underneath as in C72/C80; reading the protobuf file is external; the scores of Unigram are ordered as in C42; the corpus of BPE is bounded as in C37. Refuted: an AddedToken as unknown token and fuse_unk=None, which the signature allows, are errors (C99_unk_token_refuted, C99_fuse_refuted); one leading space is lost (C99_leading_refuted); Unigram made from a vocabulary, or trained with the defaults, fails on unknown characters (C99_unknown_refuted); a file with byte fallback decodes to the names of the bytes (C99_bytes_refuted); BPE trained without the unknown token fails (C99_bpe_unknown_refuted).
* **C100** About the files of C72, C66 and C67; JSON texts are their values. The BTreeMap order is assumed to depend on the entries only. Refuted: with two tokens of one id, the file depends on the order of a hash map and lacks a token (C100_shared_id_refuted).
* **C101** BPE and WordPiece; the assumptions are those of C37 and C38 (the counts are small enough for 32 bits). Unigram is C75 and C99. Refuted: more tokens than asked for, when the special tokens and the characters are more (C101_size_refuted).
* **C102** A dropout is known by its class; files are what read_file gives. Refuted: the documented defaults None of four arguments of BPE are errors when given (C102_none_refuted); byte_fallback without vocabulary is ignored by Unigram (C102_unigram_fallback_refuted); attributes assigned without clearing the cache (C102_stale_refuted); pickles after assigning a dropout out of range or a prefix, and of the sampling attributes of Unigram (C102_pickle_dropout_refuted, C102_pickle_prefix_refuted, C102_pickle_sampling_refuted).
* **C103** Numbers fit their machine types; the order of a hash map that was read is any permutation; the recursion limit of serde_json (128) is a constant of the model. Refuted: pickles of encodings nested more than 62 deep (C103_deep_refuted); __setstate__ of a state that is no pickle (C103_state_refuted); char_to_token without sequence_index on a token of the second sequence (C103_lookup_default_refuted).
* **C104** BpeTrainer, WordPieceTrainer and WordLevelTrainer; of UnigramTrainer the constructor only (C104_unigram_*), with floats abstract. A hash set is a list without duplicates. Refuted: a constructor that raises leaves the AddedToken objects alone (C104_marks_refuted); the constructor accepts what the attributes give (C104_none_refuted); constructor and attribute agree on an alphabet (C104_alphabet_refuted); unknown formats are refused (C104_format_refuted); the documented argument words is used (C104_words_refuted). Also refuted: __setstate__ refuses the state of another class (C104_state_refuted). A vocabulary of 2^32 tokens is accepted by one class and refused by UnigramTrainer (C104_unigram_size_refuted).

## Findings

Behaviours met while modelling that contradict a natural reading of the documentation. Those with a theorem name are
proved of the model with a witness. The others were read in the code.

Normalized strings (`tokenizer/normalizer.rs`)
* `prepend("")` sets the range of the first character to (0,0), so it is not the identity (C61). A `map` or
  `transform` after an insertion in front of everything panics or duplicates text (C17 refutations). The built-in normalizers reach it:
  `Prepend("")` or `Replace(Regex("^"), …)` followed by `Lowercase` panics (`C68_prepend_empty_refuted`,
  `C68_replace_start_refuted`).
* An empty slice gets its position in the wrong referential. The empty range at the end of a non-empty text is refused.
  `char_to_bytes` with start > end underflows.
* An empty string pattern uses a number of characters as a byte offset (C16 refutation).
* The branches 177-183 of `convert_offsets` are dead.

Pre-tokenized strings (`tokenizer/pre_tokenizer.rs`)
* Empty tokens are reported at their normalised position. Character offsets of an empty range at the end of a text stay in bytes.
* `get_splits(Normalized, Char)` converts with the table of the original text.
* With a limit from the left, word ids restart (C24).
* `encode_fast` gives type id 0 to every token (`C62_fast_types_refuted`).

Encodings and truncation (`tokenizer/encoding.rs`, `tokenizer/mod.rs`, `utils/truncation.rs`)
* `truncate` drops earlier overflowing encodings. Truncation to 0 keeps the whole encoding as overflow (`C11_overflowing_refuted`).
* `with_truncation` underflows when max_length is below the number of added tokens. It accepts stride = effective
  max_length, and then encoding panics (C10 refutations). It checks single inputs only, so pairs can panic. `TokenizerBuilder`
  does not check at all.
* The early exit of tokenisation uses the full max_length, which changes odd pairs and empty first sequences
  (`C24_odd_pair_refuted`, `C24_empty_first_refuted`).
* Overflowing encodings are not marked with their sequence (`C62_overflow_owner_refuted`).

Added tokens (`tokenizer/added_vocabulary.rs`)
* A token with `rstrip` before a token that starts with a blank gives overlapping splits. A blank token with `lstrip` panics (C27).
* New ids collide with the ids of a model whose ids have gaps. `id_to_token` may return the normalised form (C25).
* The special set never shrinks. A special token with a normalised name is not skipped (C30).
* `encode_special_tokens` and the special set are not saved. Loading over a model with gaps changes ids (C57).

Decode streams
* With `ByteFallback`, an invalid byte after a valid run makes every later step fail. With Llama's decoder the text can
  differ without an error. With the BPE decoder a stream of skipped tokens underflows. After a failing step the prefix is stale (C31).

BPE
* The queue checks the id of a merge, not its rank (`C32_distinct_ids_needed_refuted`).
* `byte_fallback` after a pending unknown reorders tokens. Unknown characters without an unknown token are dropped and
  shift the offsets (C33). Prefix and suffix are also turned to bytes.
* The builder can panic (`C36_never_panics_refuted`). `ignore_merges` is ignored under dropout. Assigning public fields leaves a
  stale cache (`C35_bpe_stale_refuted`). So does training: a tokenizer that is trained, used and trained again encodes "hug" as "hp" or panics
  (`C35_retrain_refuted`, `C35_retrain_panic_refuted`).
* Training: stale counts leave a hole in the ranks (`C37_rank_hole_refuted`), forms with prefix or suffix exceed the size (`C37_size_refuted`), the result
  depends on the order of a hash map (`C38_order_refuted`), counts of 2^31 wrap (`C38_wrap_refuted`), two characters are merged
  whatever the maximal length (`C37_max_length_refuted`).
* Saving drops tokens with a duplicate id (`C56_duplicate_refuted`) and overflows for the id 2^32-1 (`C56_max_id_refuted`).
  `merges.txt` cannot hold tokens with blanks, line ends or the header text (C67 refutations).

WordPiece, WordLevel
* `vocab.txt` shifts the ids when there are gaps or trailing blanks (`C67_hole_refuted`, `C67_blank_refuted`).
* A WordLevel special token that is also a word leaves a gap in the ids (`C59_wordlevel_gap_refuted`).
* A WordPiece model trained without prefix, or with a suffix, does not know the pieces it was trained for
  (`C64_wordpiece_prefix_refuted`, `C64_wordpiece_suffix_refuted`).

Unigram
* Without an unknown id, `encode_optimized` fails though a segmentation without unknowns exists. The lattice search returns nothing when
  a position begins no piece. Sampling then panics (C43 refutations).
* Changing `min_score`, `alpha` or `nbest_size` leaves a stale cache (`C35_unigram_stale_refuted`).
* Infinite scores are saved as null and cannot be loaded (`C66_unigram_nonfinite_refuted`). `alpha` and `nbest_size` are not saved.
* Training can exceed the size (`C59_unigram_size_refuted`) and underflows with more special tokens than the size
  (`C59_unigram_special_refuted`). It resets `byte_fallback`, `alpha` and `nbest_size`.

Post-processors
* Type ids of overflowing encodings are not set by templates and RoBERTa (C46). More than two encodings reach `todo!()`. Loading a template skips
  its validation, and a missing token panics. The setters do not update the number of added tokens (C45).

Decoders
* `Strip` and `BPEDecoder` can panic (C51). `ByteFallback` accepts `<0x+1>` (C48). Metaspace removes every mark of the first token (C49).
  ByteLevel does not remove the added prefix space (C47).

Pre-tokenizers and normalizers
* `FixedLength(0)` panics (`C53_zero_refuted`). `UnicodeScripts` drops leading characters of no script (`C53_scripts_lost_refuted`).
* BERT's table of ideographs has 0x2B920 for 0x2B820: U+2B820 to U+2B91F are not isolated (`C60_extension_e_refuted`).
* `Precompiled` moves ranges when leading text is deleted (`C68_precompiled_leading_refuted`).
* `NormalizerWrapper` lists the tag "Bert", but `BertNormalizer` writes "BertNormalizer" (it loads by the untagged fallback).

Round trip of byte-level BPE
* Text is lost or changed by: a prefix space (`C69_prefix_space_refuted`), an added token written in letters the decoder reads as bytes,
  such as "é" (`C69_added_alphabet_refuted`), an added token that takes the blanks before it (`C69_lstrip_refuted`), a vocabulary
  lacking one of the 256 characters when there is no unknown token (`C69_alphabet_refuted`).

Round trip of byte-fallback BPE
* An added token in the middle of a text brings a space after it: "a<s>b" becomes "a<s> b" (`C70_added_refuted`). A mark in the text becomes
  a space (`C70_mark_refuted`). A vocabulary without the mark, or merges of byte tokens, show marks or byte names in the decoded text
  (`C70_no_mark_refuted`, `C70_merged_bytes_refuted`, `C70_written_byte_refuted`).
* A normalized added token is searched with the mark that `Prepend` puts before it, so it is not found inside a word
  (`C70_normalized_missed_refuted`). A special token that is also a token of the model is skipped where the text needs it
  (`C70_special_mark_refuted`).

Saving and loading components
* A Metaspace saved by a version without `prepend_scheme` and with `add_prefix_space: false` is refused (`C71_old_metaspace_refuted`).
* A "Precompiled" normalizer that cannot be read is a panic instead of an error (`C71_precompiled_refuted`).
* The pre-tokenizer type "Delimiter" is listed but never loads; "CharDelimiterSplit" loads by the fallback (`C71_delimiter_refuted`).
* Unknown types load when the fields fit another kind, and "BertProcessing" with RoBERTa's fields loads as RoBERTa (`C71_wrong_type_refuted`).
* `TemplateProcessing::set_single`, `set_pair` leave the numbers of added tokens as they were; saving and loading changes them
  (`C71_setter_refuted`).

Saving and loading tokenizers
* `encode_special_tokens` is not saved: after loading, special tokens of a text are cut out again (`C72_encode_special_refuted`).
* A token that is added again without `special` keeps being skipped by `decode` until the tokenizer is saved and loaded
  (`C72_again_refuted`).
* The truncation of a file is not checked against the post-processor: one that `with_truncation` refuses loads, and then
  encoding panics (`C72_truncation_refuted`).
* A merge whose result is longer than every token of the vocabulary makes the loader panic: it is written to a buffer of the length
  of the longest token before it is looked up (`C72_merge_refuted`). A shorter one that is missing is an error.
* A field of tokenizer.json that is not one of the nine is an error (`C72_fields`).

Expected counts and samples
* The smoothing parameter of `sample` is applied to the accumulated score at each step (lattice.rs:391-394), so earlier tokens are
  smoothed several times: with 2, two segmentations with likelihoods 1/4 and 1/8 are drawn 16 : 1 instead of 4 : 1
  (`C74_smoothing_refuted`).
* Where a sum starts is decided by comparing vocabulary ids (lattice.rs:98-102, 340-346). When the text of the unknown token is in
  the sentence and ends with a character that is not a token, two nodes with the same id end at the same place and part of the sum is
  dropped (`C74_unknown_refuted`).

Training Unigram
* Training panics when a word contains the text `<UNK>`: the trainer gives the piece `<UNK>` a score of NaN, and the likelihood of such a
  word is NaN (`C75_unk_refuted`).
* Training does not end for some small vocabulary sizes: with room for 3 tokens and the words a, b, c the check of the required
  characters passes, four pieces (with `<UNK>`) are more than 3 * 1.1, and no character is ever dropped, so there is always another
  round (`C75_endless_refuted`). It takes a size below 10.
* Pruning stops when the number of pieces equals the target (trainer.rs:367); when the pieces that must be kept are already more, it is never
  equal and nothing is dropped in that round (`C75_prune`: the size is bounded only when the kept ones are fewer).
* The seed weight of a part of two or more characters does not take the number of times a word occurs into account (each word is once in the
  text of the suffix array), that of a single character does (`C75_seeds`).

Templates
* `TemplateProcessing::default()` has the pair template `$1` (template.rs:531), which is the first sequence with type id 1: the second text
  of a pair is lost (`C76_default_refuted`). The builder's default is right.
* Special tokens whose name has a colon, or begins with `$`, cannot be written in a template, whose pieces have no escapes
  (`C76_expressible`); type ids may have a `+` sign.

Training a tokenizer
* `train_from_files` returns an error of reading only after it has trained on the lines before the error and replaced the model
  (`ResultShunt::process` runs the closure, then looks at the error): the caller sees `Err`, and the tokenizer has changed
  (`C77_reading_refuted`, `C77_read_error`).
* Tokens added before training keep their ids, and the new model gives the same ids to tokens of its own: `decode(encode(text))` shows the
  added token instead (`C77_retrain_refuted`). `train` could renumber the added tokens or refuse.
* The texts of added tokens in the corpus are counted as words although the model will never be asked about them
  (`C77_added_words_refuted`).

Parallelism
* `maybe_par_chunks` (parallelism.rs:229-240) does not set `USED_PARALLELISM` as the other iterators do. After a parallel iteration over
  chunks (the E step and pruning of the Unigram trainer) `has_parallelism_been_used()` is false and the fork handler of the Python bindings
  leaves parallelism on in the child (`C78_chunks_refuted`, `C78_fork_chunks_refuted`); the other iterators are safe (`C78_fork`).

* Metaspace: the unknown token of a Unigram model written twice in a row in a text comes back once, because its pieces are fused like unknown
  characters (`C79_written_unknown_refuted`); a replacement character in the text comes back as a space (`C79_mark_refuted`).

* Training keeps the ids of tokens that were added before, though the new model gives these ids to other words; after saving and loading the token
  has another id (`C80_early_refuted`).

* Python: `async_encode_batch(..., is_pretokenized=True)` rejects a list of two words that `encode_batch` accepts (`C81_two_words_refuted`), and arrays of two
  texts (`C81_array_pair_refuted`).
* Python: `async_encode` gives offsets in bytes, `encode` in characters (`C81_async_refuted`).
* Python: the words of a numpy array of dtype `U` get three NUL characters after each character, and an accent is an error (`C81_array`, `C81_array_refuted`).
* Python: `NormalizedString` counts bytes for negative positions, ignores the step of a slice, and does not give empty strings for empty slices
  (`C82_negative_refuted`, `C82_negative_slice_refuted`, `C82_step_refuted`, `C82_empty_refuted`).

* Python: when the iterator given to `train_from_iterator` raises, up to 255 texts that it gave before are lost, and the model has been replaced
  (`C83_generator`, `C83_raise_refuted`).
* Python: inside a normalizer written in Python, `n.for_each(lambda c: n.normalized)` waits for itself for ever (`C84_self_refuted`); a kept reference
  that another thread uses at the end of the call is a deadlock between its mutex and the GIL (`C84_threads_refuted`); an exception raised
  by the callback of `filter`, `map` or `for_each` aborts the process, because the guard unwraps a poisoned mutex while the panic unwinds (`C84_abort_refuted`).

* Python: `train_from_iterator` holds the write lock and takes the GIL for every refill, while other methods wait for the lock with the GIL held: two threads
  wait for each other for ever (`C85_train_refuted`). The same happens with `encode` and a component written in Python against `add_tokens` or a setter
  (`C85_component_refuted`), and in one thread when the iterator uses the tokenizer that is being trained (`C85_self_refuted`).

* Python: misspelled keyword arguments of `enable_padding` and `enable_truncation` are ignored with a message on the standard output (`C86_ignored`); `length` and `max_length` together
  depend on their order (`C86_length_refuted`).
* Python: pickling or copying an `AddedToken` fixes `normalized`, so the copy given to `add_special_tokens` is another token than the original (`C87_copy_refuted`);
  `add_special_tokens` with a wrong item raises after it has changed the objects before that item (`C87_error_refuted`).

* Python: `s[0] = s[0]` on a `Sequence` waits for itself for ever (`C88_hang_refuted`); `s[0] = q` replaces the component of every object that shares it, also one of
  another class, whose getters then panic (`C88_class_refuted`); with the same object twice in a sequence it changes both items (`C88_twice_refuted`).
* Python: a sequence of normalizers loaded inside another has an item at every index, so that `for x in s[0]` does not end (`C88_loop_refuted`).
* Python: `t.normalizer.lowercase = False` leaves the added tokens with the patterns of the old normalizer, so that `t` differs from a pickled copy of itself
  (`C88_stale_refuted`); `t.normalizer = t.normalizer` repairs it (`C88_reassign`). Training a model through one tokenizer changes the ids under the added tokens of
  others that share it (`C88_trained_refuted`).

* `prepend("")` on a text that is not empty moves its first character in front of the original: the sequence `Prepend("")`, `Lowercase` panics on every such text
  (`C17_prepend_refuted`). `clear` keeps the characters in front (`C17_clear_refuted`). `C17_exact` gives the panics of every operation after every history.

* The cleanup of the WordPiece decoder has rules for contractions (" n't", " 'm", " do not"), but it looks at one token at a time and the pre-tokenizer of BERT sets every
  apostrophe apart, so that they never apply: "un't" is decoded to "un ' t" (`C89_contraction_refuted`).
* `BertWordPieceTokenizer(wordpieces_prefix="@@")` gives the prefix to the decoder but not to the model, which goes on writing "##": "unab" is decoded to "un ##a ##b"
  (`C89_prefix_refuted`).

* `CharBPETokenizer`: decoding the ids of an empty or blank text panics (`C90_blank_refuted`; the decoder computes `tokens.len() - 1`, see C51).
* With an end of word suffix, a character that is not in the alphabet becomes the unknown token without the suffix, so that the word is glued to the next one:
  "z a" is decoded to "<unk>a" (`C90_unknown_refuted`). A word with the suffix in it comes apart (`C90_suffix_refuted`).

* `EncodingVisualizer` (C92): the empty text is an IndexError (`C92_empty_refuted`); in the pattern for unknown tokens "\\b" is a backspace, so that every token with
  "unk" or "oov" in it, such as "chunk", is marked as special (`C92_unk_refuted`); labels are not escaped (`C92_label_refuted`); a negative start wraps round to the end of
  the text (`C92_negative_refuted`); tokens that a template adds are never shown, although the code has a case for them (`C92_special_refuted`); "multi-token" is only said of
  the first character of a span (`C92_multi_refuted`); from 19 labels on, two have the same colour (`C92_hue_refuted`).

* `str` and `repr` in Python (C93): `str` cuts texts after 100 bytes and panics if this is inside a character, so that an object with such a text (a long token that is
  not ASCII) cannot be printed (`C93_cut_refuted`); quotes in texts are not escaped (`C93_quotes_refuted`); a list of exactly `max_elements` elements is shown without its
  last (`C93_limit_refuted`); from 20 levels on (200 for `repr`) two levels share a counter and elements of short lists are hidden (`C93_deep_refuted`).

* Node.js bindings (C94): `setTruncation` unwraps the error for a stride that is too large, so a call that raises `ValueError` in Python panics (`C94_stride_refuted`);
  `setPadding()` without options turns padding off instead of on with the defaults (`C94_padding_refuted`; a commented-out test expects the defaults); the option `isPretokenized`
  is accepted and ignored (`C94_pretokenized_refuted`); `encoding.truncate(n)` keeps the end by default although `setTruncation(n)` and Python keep the beginning
  (`C94_direction_refuted`); `slice(s, i, i)` is an error for i > 0 (`C94_slice_refuted`); `bertNormalizer({lowercase: false})` keeps accents although its documentation says that
  `stripAccents` is true by default (`C94_bert_refuted`); methods of `new Encoding()` panic (`C94_unset_refuted`).

* Promises of the Node.js bindings (C95): a setter called after `encode()` and before its `await` may or may not affect the call (`C95_late_refuted`). When two tokenizers share a model
  object, `train` on one while the other encodes a batch gives a batch encoded partly with the old and partly with the new model (`C95_mixed_refuted`), and can halt the process for ever:
  the trainer takes the write lock of the model and then starts parallel loops on rayon (`models/bpe/trainer.rs`, `maybe_par_iter`), whose workers all wait for the read lock of the same
  model (`C95_deadlock_refuted`, for every number of workers). The Python bindings take the same locks in the same order (`bindings/python/src/trainers.rs:95-100`).

* ByteLevelBPETokenizer (C96): a vocabulary given without merges is dropped without a word, and so are `dropout` and the affixes of a tokenizer made without vocabulary
  (`C96_half_given`, `C96_forgotten`). `end_of_word_suffix` cannot be used for round trips: the byte-level decoder writes it into the text (`C96_suffix_refuted`); an added token made of
  characters that stand for bytes, such as "é", is decoded as those bytes, here to U+FFFD (`C96_added_refuted`).

* BertWordPieceTokenizer (C97): a vocabulary without the unknown token is accepted and fails at the first unknown word (`C97_unk_refuted`); `wordpieces_prefix` is given to the decoder
  only, so any other value than "##" leaves the marks of continuations in decoded texts (`C97_prefix_refuted`); a tokenizer made without vocabulary and then trained never puts [CLS] and
  [SEP] (`C97_unmarked`); one made with a vocabulary and then trained keeps the old ids of its special tokens in the post-processor and in the added tokens, where they hide the new
  tokens with these ids: words of the training text are decoded as "[SEP]" or left out (`C97_stale_refuted`).

* CharBPETokenizer (C98): `decode` of no ids panics (`C98_nothing_refuted`), and so does, by default, that of a text of unknown characters only, whose tokens are all left out
  (`C98_unknown_refuted`); a vocabulary without the unknown token, or training without it, is accepted and fails at the first unknown character (`C98_unk_refuted`); `train(suffix=None)`,
  which the signature allows, is an error (`C98_no_suffix_refuted`); another suffix in `train` than in the constructor stays in decoded texts, without spaces (`C98_suffix_refuted`); a
  vocabulary without merges is silently dropped (`C98_both_or_none`); one made with a vocabulary and then trained keeps the old id of `<unk>`, which hides the new token with that id
  (`C98_stale_refuted`).

* SentencePiece tokenizers (C99): an `AddedToken` as `unk_token` and `fuse_unk=None`, both allowed by the signature, are errors (`C99_unk_token_refuted`, `C99_fuse_refuted`); one leading
  space is lost (`C99_leading_refuted`); `SentencePieceUnigramTokenizer(vocab)` has no unknown token even if one is in the vocabulary, and neither has one trained with the defaults: encoding
  fails at the first unknown character (`C99_unknown_refuted`); `from_spm` of a model with byte fallback encodes the bytes of unknown characters but has no decoder for them
  (`C99_bytes_refuted`); a BPE tokenizer trained without `<unk>` among the special tokens fails at unknown characters (`C99_bpe_unknown_refuted`).

* Two tokens with one id in a WordLevel vocabulary (C100): which one is written depends on the order of the hash map, so two saves of the same vocabulary can differ, and each lacks a token
  (`C100_shared_id_refuted`).

* `vocab_size` is not a bound (C101): special tokens and characters are all kept, so `vocab_size = 2` can give 4 tokens (`C101_size_refuted`); with a prefix or suffix the decorated characters come on top (C37).

* `BPE(fuse_unk=None)` is a `TypeError` although the documented signature has `fuse_unk=None`; the same for `cache_capacity`, `continuing_subword_prefix` and `end_of_word_suffix` (`C102_none_refuted`).
* `Unigram(byte_fallback=True)` without a vocabulary has no byte fallback (`C102_unigram_fallback_refuted`).
* The setters of BPE do not clear its cache: words tokenized before keep their old tokens (`C102_stale_refuted`). `dropout` and `ignore_merges` are safe.
* `bpe.dropout = 1.5` is accepted, and the pickle then cannot be loaded (`C102_pickle_dropout_refuted`). Assigning `continuing_subword_prefix` leaves the merges as they are; they are built again when the pickle is loaded, which panics or gives other merges (`C102_pickle_prefix_refuted`). `alpha` and `nbest_size` of Unigram are not in its pickle (`C102_pickle_sampling_refuted`).

* Padding to 1 and truncating to 0 sixty-three times, all accepted, makes an `Encoding` that pickles but cannot be unpickled or copied: serde_json stops at 128 nested values (`C103_deep_refuted`).
* `Encoding.__setstate__` accepts arrays of different lengths; `truncate` then panics whatever the stride (`C103_state_refuted`).
* `char_to_token(pos)` without `sequence_index` looks in the first sequence, so the place of a token of the second one leads to a token of the first (`C103_lookup_default_refuted`).

* Giving an `AddedToken` to a trainer as a special token changes the object of the user (it becomes special, and if `normalized` was not given, no longer matched on normalized text), also when the constructor raises (`C104_marks_refuted`).
* `limit_alphabet=None`, `continuing_subword_prefix=None` and `end_of_word_suffix=None`, the documented defaults, are refused by the constructors of the trainers, while the attributes accept them (`C104_none_refuted`).
* `__setstate__` of a trainer accepts the state of a trainer of another class; reading an attribute then panics (`unreachable!()`) and assigning to one silently does nothing (`C104_state_refuted`).
* `initial_alphabet=["abc"]` means `a` in a constructor and raises as an assignment (`C104_alphabet_refuted`); an unknown `progress_format` is taken for the default (`C104_format_refuted`); the argument `words` in the signature of `BpeTrainer` is ignored (`C104_words_refuted`).

## Seeded changes

`seeded/LOG.jsonl` lists the edits tried on a scratch copy of the model, one per line, with the theorems that failed. An edit
that fails no theorem led to a stronger one (`theorems_tightened`), or is equivalent to the original or explained (`note` or `claim_broken`),
or changes something no theorem states. Thirteen lines have neither failure, tightening nor note. Of these, the following change
behaviour that the claims leave open: `m23/kt_wlmodel`, `m26/pi_le` (code points beyond ASCII), `m28/rf_abort`, `m37/nt_hmodelw`,
`m38/im_special` (only an example fails), `m38/im_minf`, `m38/im_err`, `m39/bt_pad` and `m39/bt_tlen`.

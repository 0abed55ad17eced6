{"id": "C01", "title": "Truncation windows tile the sequence", "statement": "Encoding::truncate(max_len, stride, dir) on an encoding longer than max_len > stride leaves the encoding and its overflowing list such that: the encoding itself is the first (Right) or last (Left) max_len tokens; every window has at most max_len tokens and only the last may be shorter; consecutive windows share exactly stride tokens; dropping the shared tokens and concatenating the windows gives back every token of the input exactly once and in order. All per-token arrays are cut at the same positions. With max_len = 0 the encoding becomes empty and the whole input is the only overflowing part; with max_len >= len nothing changes.", "quantifier": "every encoding, every max_len, every stride < max_len, both directions", "why_tests_cant": "The window arithmetic depends on three unbounded numbers and a direction; off-by-one errors only show for particular residues of the length modulo max_len - stride.", "anchors": ["tokenizers/src/tokenizer/encoding.rs: Encoding::truncate"]}
{"id": "C02", "title": "Per-token arrays stay parallel", "statement": "ids, type_ids, tokens, words, offsets, special_tokens_mask and attention_mask of an encoding (and of every encoding in its overflowing list, recursively) have the same length after any sequence of truncate, pad, merge_with and the library's post-processors, if they had so before.", "quantifier": "every encoding with parallel arrays, every finite history of operations with any arguments", "why_tests_cant": "A history property over unbounded operation sequences and nested overflowing encodings.", "anchors": ["tokenizers/src/tokenizer/encoding.rs: Encoding::{truncate,pad,merge_with}", "tokenizers/src/processors/{bert,roberta,template}.rs: process_encodings"]}
{"id": "C03", "title": "Truncation panics exactly when the stride is too large", "statement": "Encoding::truncate panics if and only if 0 < max_len < len and stride >= max_len; in every other case it terminates normally.", "quantifier": "every encoding, max_len, stride and direction", "why_tests_cant": "Needs the exact set of panicking inputs, including non-termination of the window loop when max_len - stride = 0.", "anchors": ["tokenizers/src/tokenizer/encoding.rs: Encoding::truncate (assert!)"]}
{"id": "C04", "title": "Padding keeps content and reaches the target", "statement": "Encoding::pad(target, id, type_id, token, dir) yields an encoding of length max(len, target); the original tokens with all their attributes are an unchanged suffix (Left) or prefix (Right); each added position has the pad id, pad type id, pad token, no word, offsets (0,0), special mask 1 and attention mask 0; sequence membership of the original tokens is unchanged; every overflowing encoding is padded the same way.", "quantifier": "every encoding (including nested overflowing), every target length and both directions", "why_tests_cant": "All seven arrays, sequence ranges and nested encodings have to agree for all lengths.", "anchors": ["tokenizers/src/tokenizer/encoding.rs: Encoding::pad"]}
{"id": "C05", "title": "Batch padding makes the batch rectangular and minimal", "statement": "pad_encodings with BatchLongest gives every encoding the same length L, where L is the least multiple of pad_to_multiple_of (when given and non-zero) that is >= the longest encoding; with Fixed(n), every encoding not longer than the (rounded) n has exactly that length and longer ones are unchanged.", "quantifier": "every batch, every strategy, every multiple including 0", "why_tests_cant": "Depends on a maximum over an unbounded batch and on rounding for every modulus.", "anchors": ["tokenizers/src/utils/padding.rs: pad_encodings"]}
{"id": "C06", "title": "Merging concatenates and keeps each token's provenance", "statement": "merge_with appends every per-token array of the second encoding after the first, shifts its offsets by the end of the first encoding's last token exactly when growing_offsets is set, and shifts its sequence ranges by the length of the first; merging a list is independent of how it is associated (for the main arrays), the empty encoding is neutral, and the overflowing result contains every combination of a part of the first with a part of the second except the main one, each exactly once.", "quantifier": "every pair/list of encodings, with any overflowing lists, both growing_offsets modes", "why_tests_cant": "Combinatorial over two unbounded overflowing lists and unbounded merge trees.", "anchors": ["tokenizers/src/tokenizer/encoding.rs: Encoding::{merge_with,merge}"]}
{"id": "C07", "title": "Position lookups on an encoding are mutually consistent", "statement": "char_to_token(pos, seq) returns the first token of sequence seq whose offsets contain pos, and None exactly when there is none; token_to_chars returns the token's offsets with its sequence; char_to_word and token_to_word agree through char_to_token; word_to_tokens returns a range whose first and last tokens carry that word and which contains every token of the word in the sequence when word ids are non-decreasing.", "quantifier": "every encoding with well-formed sequence ranges, every position, word and sequence index", "why_tests_cant": "Universally quantified over encodings and queries; tests fix a handful of offsets.", "anchors": ["tokenizers/src/tokenizer/encoding.rs: Encoding::{char_to_token,token_to_chars,token_to_word,char_to_word,word_to_tokens,word_to_chars}"]}
{"id": "C08", "title": "Token-to-sequence is defined exactly on the tokens of a sequence", "statement": "token_to_sequence(i) is Some(s) only if i is a token index of the encoding and belongs to input sequence s, and None for indices outside the encoding.", "quantifier": "every encoding and every index", "why_tests_cant": "The boundary index len is a single point for each length; needs quantification over every encoding.", "anchors": ["tokenizers/src/tokenizer/encoding.rs: Encoding::token_to_sequence"]}
{"id": "C09", "title": "Pair truncation respects max_length, is exact and fair", "statement": "When truncate_encodings succeeds the two lengths sum to at most max_length, and to exactly max_length when the input was longer; nothing changes when the input fits. LongestFirst only shortens the longer sequence until both are equal and then splits the remainder evenly (lengths differ by at most one); OnlyFirst/OnlySecond change only the designated sequence and fail with SequenceTooShort exactly when removing the excess would leave it empty, and SecondSequenceNotProvided exactly when there is no pair. The kept tokens are a prefix (Right) or suffix (Left) of the input.", "quantifier": "every pair of encodings, every max_length, strategy and direction", "why_tests_cant": "Case analysis over two unbounded lengths and a bound, with swap and parity.", "anchors": ["tokenizers/src/utils/truncation.rs: truncate_encodings"]}
{"id": "C10", "title": "Truncation settings accepted by with_truncation never make encoding panic", "statement": "If with_truncation accepts a configuration, then encoding a text never panics because of truncation when the stride is zero or smaller than max_length minus the special tokens of a single text (this is exact); nor does encoding a pair when the special tokens of a pair fit in max_length and the stride is zero or, under LongestFirst, smaller than half of what they leave. Outside these bounds accepted configurations do panic (shown by witnesses).", "quantifier": "every accepted TruncationParams, every post-processor token count, every input length", "why_tests_cant": "The acceptance check and the later assertion are in different modules; the bad configurations are boundary points.", "anchors": ["tokenizers/src/tokenizer/mod.rs: TokenizerImpl::with_truncation", "tokenizers/src/tokenizer/mod.rs: post_process", "tokenizers/src/tokenizer/encoding.rs: Encoding::truncate"]}
{"id": "C11", "title": "Encoded length never exceeds max_length", "statement": "With truncation configured to max_length and special tokens added by a built-in post-processor whose added_tokens count is accurate, every successful encode without padding has at most max_length tokens, and so has every overflowing encoding provided the special tokens leave room for one token (two for a pair cut by LongestFirst); without that room a whole sequence stays as an overlong overflowing encoding.", "quantifier": "every text or pair, every strategy, every accepted max_length, BERT/RoBERTa/template post-processors", "why_tests_cant": "Combines truncation, post-processing and merging over all inputs.", "anchors": ["tokenizers/src/tokenizer/mod.rs: post_process", "tokenizers/src/utils/truncation.rs", "tokenizers/src/processors/*"]}
{"id": "C12", "title": "Alignment invariant of NormalizedString", "statement": "After any sequence of normalisation operations, a NormalizedString has exactly one alignment per byte of its normalised text, every alignment is a range inside the original text with start <= end lying on character boundaries, alignments are non-decreasing, and the bytes of one character share one alignment.", "quantifier": "every original text, every finite history of transform/map/filter/lowercase/uppercase/prepend/append/replace/strip/clear/slice operations", "why_tests_cant": "A history invariant over unbounded strings and operations.", "anchors": ["tokenizers/src/tokenizer/normalizer.rs: NormalizedString::{transform_range,transform,filter,map,lowercase,uppercase,prepend,append,replace,lstrip,rstrip,strip,clear,slice}"]}
{"id": "C13", "title": "Offset conversion between normalised and original text is sound", "statement": "convert_offsets from a non-empty normalised range returns an original range inside the original text that contains the alignment of every byte of the range and starts/ends at the alignment of its first/last byte; from an original range it returns the normalised bytes that come from inside the range; full range converts to full range for an untouched string; an inverted range, or a normalised range past the end, gives None (an original range past the end is clamped instead).", "quantifier": "every NormalizedString satisfying the alignment invariant and every range in either referential", "why_tests_cant": "Universally quantified over alignments.", "anchors": ["tokenizers/src/tokenizer/normalizer.rs: NormalizedString::convert_offsets"]}
{"id": "C14", "title": "Slicing keeps text, alignments and position together", "statement": "slice(range) returns None exactly when the range does not fall on character boundaries / is out of bounds, and otherwise a NormalizedString whose normalised text is that range's text, whose original text is the original text of the converted range, whose offsets_original are that range in the parent's original, and which satisfies the alignment invariant.", "quantifier": "every valid NormalizedString and range", "why_tests_cant": "Unbounded strings, arbitrary alignments.", "anchors": ["tokenizers/src/tokenizer/normalizer.rs: NormalizedString::slice"]}
{"id": "C15", "title": "Splitting partitions the text according to the delimiter behaviour", "statement": "NormalizedString::split with a pattern that covers the string yields consecutive pieces: for Isolated, Contiguous, MergedWithPrevious and MergedWithNext their concatenation is exactly the input text (no character lost or duplicated), for Removed it is the input with the matched parts removed; the order is preserved, and no piece mixes text across a boundary the behaviour requires (e.g. Isolated: each match alone).", "quantifier": "every string, every covering match list, each of the five behaviours", "why_tests_cant": "Unbounded match lists with five fold-based merge behaviours.", "anchors": ["tokenizers/src/tokenizer/normalizer.rs: NormalizedString::split", "tokenizers/src/tokenizer/normalizer.rs: SplitDelimiterBehavior"]}
{"id": "C16", "title": "Patterns cover the whole string with contiguous ordered slices", "statement": "find_matches of a character, non-empty string, predicate, regex or inverted pattern returns slices that start at 0, are contiguous, end at the byte length of the text, lie on character boundaries, and are flagged exactly where the pattern matches. (The empty string pattern violates this on multi-byte text.)", "quantifier": "every text and every pattern (regex engine as an oracle returning ordered non-overlapping matches)", "why_tests_cant": "Trait contract stated in a comment; must hold for every string including multi-byte ones.", "anchors": ["tokenizers/src/tokenizer/pattern.rs: Pattern::find_matches for char, &str, &Regex, &SysRegex, Fn(char)->bool, Invert"]}
{"id": "C17", "title": "Normalisation operations never panic", "statement": "Any sequence of public normalisation operations applied to a NormalizedString terminates without panicking, unless characters were inserted in front of the whole original text. After such an insertion, an operation panics exactly when the changes it makes use up more characters than there are after the inserted ones; otherwise the inserted characters stay and the new text follows them.", "quantifier": "every original text and every history of operations", "why_tests_cant": "The failing inputs need a specific interleaving (zero-width insertion at the start, then a full transform).", "anchors": ["tokenizers/src/tokenizer/normalizer.rs: transform_range", "tokenizers/src/tokenizer/normalizer.rs: replace", "tokenizers/src/tokenizer/normalizer.rs: lowercase"]}
{"id": "C18", "title": "Byte and character ranges convert back and forth", "statement": "char_to_bytes of a character range inside the string gives the byte range of exactly those characters, bytes_to_char of a boundary-aligned byte range gives the character range, and the two are inverse.", "quantifier": "every string and every range", "why_tests_cant": "All multi-byte layouts.", "anchors": ["tokenizers/src/tokenizer/normalizer.rs: bytes_to_char, char_to_bytes"]}
{"id": "C19", "title": "Filtering and stripping keep the alignment of what remains", "statement": "filter keeps exactly the characters satisfying the predicate, in order, each with its previous alignment; lstrip/rstrip/strip remove exactly the leading/trailing whitespace.", "quantifier": "every valid NormalizedString, every predicate", "why_tests_cant": "Unbounded strings with runs of removed characters at the beginning, middle and end.", "anchors": ["tokenizers/src/tokenizer/normalizer.rs: filter, lrstrip"]}
{"id": "C20", "title": "Replace substitutes every match and nothing else", "statement": "replace(pattern, content) turns the normalised text into the text with every match replaced by content; text outside matches keeps its alignment and replaced text is aligned inside the original span of the match.", "quantifier": "every valid NormalizedString, every covering match list, every replacement", "why_tests_cant": "Offsets shift with every replacement, so each case depends on all previous ones.", "anchors": ["tokenizers/src/tokenizer/normalizer.rs: replace"]}
{"id": "C21", "title": "Pre-tokenisation never loses or invents text", "statement": "A pre-tokenizer that only splits (without removing delimiters) produces splits whose normalised texts concatenate to the original normalised text, and every split's original offsets are inside the original text and in order.", "quantifier": "every text, every sequence of such pre-tokenizers", "why_tests_cant": "Composition of arbitrary many splitting passes.", "anchors": ["tokenizers/src/tokenizer/pre_tokenizer.rs: PreTokenizedString::split", "tokenizers/src/pre_tokenizers/*"]}
{"id": "C22", "title": "Encodings built from pre-tokenised text are faithful", "statement": "into_encoding yields one row per token in order, with the token's id and text; offsets are inside the original text with start <= end and come from the token's own split; words are numbered by split in non-decreasing order, or all equal to the given word index; it fails exactly when some split has no tokens attached.", "quantifier": "every PreTokenizedString with valid splits, every token list, byte/char/none offset types", "why_tests_cant": "Unbounded splits and tokens with arbitrary alignments.", "anchors": ["tokenizers/src/tokenizer/pre_tokenizer.rs: PreTokenizedString::into_encoding"]}
{"id": "C23", "title": "Character offsets are the character positions of the byte offsets", "statement": "With char offsets, every reported (start, end) pair obtained from boundary-aligned byte offsets equals the number of characters before these byte positions.", "quantifier": "every text and every boundary-aligned byte range, including the end of the text", "why_tests_cant": "All multi-byte layouts and end-of-text positions.", "anchors": ["tokenizers/src/tokenizer/pre_tokenizer.rs: BytesToCharOffsetConverter::{new,convert}"]}
{"id": "C24", "title": "Early-exit tokenisation gives the same truncated result", "statement": "Encoding with a token limit (tokenise only as many splits as needed) followed by truncation yields the same tokens as tokenising everything and truncating, for texts, lists of words and pairs; only word numbers of raw text cut from the left may differ, and only LongestFirst pairs with an odd number of tokens to share, both sequences being at least max_length long, are excluded (they do differ).", "quantifier": "every list of splits, every tokenise function, every limit and direction, single sequences and pairs", "why_tests_cant": "An optimisation that must be invisible for every input; the differences need particular length parities or directions.", "anchors": ["tokenizers/src/tokenizer/pre_tokenizer.rs: tokenize_with_limit", "tokenizers/src/tokenizer/mod.rs: do_tokenize, post_process"]}
{"id": "C25", "title": "Added-token ids are stable and unambiguous", "statement": "After any history of add_tokens/add_special_tokens, each added token has one id that never changes later, distinct added tokens have distinct ids, id_to_token(token_to_id(t)) = t for added tokens, tokens already in the model keep the model id, and newly created ids do not collide with any id of the model.", "quantifier": "every model vocabulary, every finite history of additions (duplicates, empties, re-additions with other flags)", "why_tests_cant": "Invariant over unbounded histories.", "anchors": ["tokenizers/src/tokenizer/added_vocabulary.rs: AddedVocabulary::{add_tokens,add_special_tokens,token_to_id,simple_id_to_token}"]}
{"id": "C26", "title": "Adding tokens is idempotent and counts new tokens", "statement": "add_tokens returns the number of tokens of the list that were actually recorded; re-adding the same tokens returns 0 and changes nothing; empty tokens are ignored.", "quantifier": "every state and every token list with any duplicates", "why_tests_cant": "Depends on duplicates inside the list and on history.", "anchors": ["tokenizers/src/tokenizer/added_vocabulary.rs: AddedVocabulary::add_tokens"]}
{"id": "C27", "title": "Added-token extraction partitions the text", "statement": "find_matches returns spans that are ordered, non-overlapping and cover the text exactly, each either plain text or one added token, and each token span contains that token's content; hence extracting added tokens never loses, duplicates or reorders text.", "quantifier": "every text, every set of added tokens with any combination of lstrip/rstrip/single_word/normalized/special", "why_tests_cant": "The interaction of whitespace-absorbing tokens with neighbouring tokens needs particular adjacent matches.", "anchors": ["tokenizers/src/tokenizer/added_vocabulary.rs: AddedVocabulary::find_matches, split_with_indices, extract_and_normalize"]}
{"id": "C28", "title": "Added tokens match leftmost-longest and respect their flags", "statement": "A text span is reported as an added token only where its content occurs; single_word tokens are only reported at word boundaries; special tokens are not reported when encode_special_tokens is set; absorbed whitespace is only whitespace and only on the sides the flags allow.", "quantifier": "every text and token set", "why_tests_cant": "Universally quantified over texts and tokens.", "anchors": ["tokenizers/src/tokenizer/added_vocabulary.rs: AddedVocabulary::find_matches"]}
{"id": "C29", "title": "Vocabulary size equals the number of tokens in the vocabulary", "statement": "get_vocab_size(with_added) equals the number of entries of get_vocab(with_added), before and after any history of additions.", "quantifier": "every model vocabulary and history of additions", "why_tests_cant": "History invariant with overlap between the model vocabulary and the added tokens.", "anchors": ["tokenizers/src/tokenizer/mod.rs: get_vocab, get_vocab_size", "tokenizers/src/tokenizer/added_vocabulary.rs"]}
{"id": "C30", "title": "Decoding skips special tokens and only them", "statement": "decode(ids, skip_special_tokens) feeds the decoder exactly the tokens of the known ids, in order, leaving out those whose token is special when skip_special_tokens is set; unknown ids contribute nothing; no decoder means joining with single spaces.", "quantifier": "every vocabulary, every history of added tokens, every id list", "why_tests_cant": "Depends on the history of added special tokens and on every id.", "anchors": ["tokenizers/src/tokenizer/mod.rs: TokenizerImpl::decode", "tokenizers/src/tokenizer/added_vocabulary.rs: is_special_token"]}
{"id": "C31", "title": "Streaming decode reproduces the batch decode", "statement": "Feeding ids one by one to a DecodeStream and concatenating the produced chunks gives the text that decode gives for the ids emitted so far, whenever decoding is steady: the text of further ids is only added to a complete text, the same whether decoded with all the ids before or with a window of them that starts after a complete text. Then no call fails, what was produced is always a prefix of decode of all ids so far, and all of it whenever that text does not end in an incomplete character. Tokenizers without a decoder and with the ByteLevel, WordPiece, Metaspace, CTC, Fuse or Replace decoder are steady. With ByteFallback or BPE, as long as no call fails, the produced text is what decode gives for the ids up to the last chunk. No chunk is empty or ends in an incomplete character, whatever the decoder.", "quantifier": "every id sequence and every decoder", "why_tests_cant": "Property of unbounded streams with internal window state.", "anchors": ["tokenizers/src/tokenizer/mod.rs: DecodeStream, step_decode_stream"]}
{"id": "C32", "title": "BPE merging computes the canonical greedy BPE segmentation", "statement": "Word::merge_all (priority-queue based) without dropout yields the same symbol sequence as the defining algorithm: repeatedly merge the leftmost occurrence of the adjacent pair with the lowest rank until no pair has a rule.", "quantifier": "every word and every merge table built from a vocabulary with distinct ids (without that hypothesis the claim is refuted), every tie-breaking of the heap", "why_tests_cant": "The queue contains stale entries; equivalence has to be shown for every interleaving of merges.", "anchors": ["tokenizers/src/models/bpe/word.rs: Word::merge_all"]}
{"id": "C33", "title": "BPE tokens cover the word in order", "statement": "The tokens BPE returns for a word have contiguous offsets starting at 0 and ending at the word's byte length, as soon as every character is known, has its bytes in the vocabulary, or there is an unknown token; every token is a vocabulary entry with its id, and a token over known characters is the text at its offsets (with the prefix/suffix its place asks for). Tokenising never panics.", "quantifier": "every vocabulary, merge table, configuration (unk, fuse_unk, byte_fallback, prefixes/suffixes) and word", "why_tests_cant": "Depends on the configuration and unknown characters in any position.", "anchors": ["tokenizers/src/models/bpe/model.rs: BPE::{merge_word,word_to_tokens,tokenize}"]}
{"id": "C34", "title": "BPE dropout only selects among valid segmentations", "statement": "With dropout, whatever the random draws, merge_all terminates and yields a segmentation of the same symbols obtainable by applying merge rules; with every draw dropping, no merge happens; with no draw dropping the result is the canonical one.", "quantifier": "every word, merge table and sequence of random outcomes", "why_tests_cant": "All random outcome sequences.", "anchors": ["tokenizers/src/models/bpe/word.rs: Word::merge_all (dropout)"]}
{"id": "C35", "title": "Model caches are invisible", "statement": "For every history of tokenize calls by any number of threads (with interleaved reads, writes, skipped lock acquisitions, clears and resizes), a cached model returns what the uncached computation returns.", "quantifier": "every history/interleaving of cache operations, every capacity", "why_tests_cant": "Schedules and histories cannot be enumerated by tests; includes changes of model settings between calls.", "anchors": ["tokenizers/src/utils/cache.rs: Cache", "tokenizers/src/models/bpe/model.rs: BPE::tokenize_with_cache, clear_cache", "tokenizers/src/models/unigram/model.rs: encode"]}
{"id": "C36", "title": "BPE construction validates its merge table", "statement": "BpeBuilder::build accepts exactly the merge lists whose parts and merged tokens are all in the vocabulary, panics only on a right part shorter than the prefix or a result longer than every token, and in the resulting table each rule maps to the id of the concatenated token with its rank equal to its position.", "quantifier": "every vocabulary, merge list and configuration", "why_tests_cant": "Every merge list; failing inputs involve prefixes longer than the right part.", "anchors": ["tokenizers/src/models/bpe/model.rs: BpeBuilder::build"]}
{"id": "C37", "title": "BPE training yields a usable, bounded vocabulary", "statement": "On a corpus of less than 2^31/5 characters training a BPE succeeds: ids are 0..n-1 without gaps or repetitions, the k-th special token has id k, n is at most max(vocab_size, special tokens + kept alphabet) (plus the decorated forms of characters when a prefix or suffix is set), both parts and the result of every merge are tokens and every other token is the result of a merge, the model is the one the builder makes of this vocabulary and these merges. Without prefix and suffix the ranks are 0..m-1 in learning order, merged tokens are shorter than max_token_length unless they are two characters. The kept alphabet holds the most frequent characters within limit_alphabet.", "quantifier": "every table of word counts within the size, every trainer configuration, every order of ties in the heap and the sort", "why_tests_cant": "Unbounded corpora and configurations.", "anchors": ["tokenizers/src/models/bpe/trainer.rs: BpeTrainer::do_train"]}
{"id": "C38", "title": "BPE training merges the most frequent pair", "statement": "Every step of training merges a pair of maximal total frequency over the current segmentation of the corpus (smallest ids among equals, only pairs within the length limit), everywhere, and training stops only when the vocabulary is full or no pair reaches max(1, min_frequency). Without prefix, suffix and alphabet limit the trained model depends on the word counts only, not on hash order or ties.", "quantifier": "every table of word counts within the size, every trainer (with a prefix or suffix: as long as results of merges are new)", "why_tests_cant": "Counts are kept incrementally with lazy updates of a heap; an error shows only after many merges.", "anchors": ["tokenizers/src/models/bpe/trainer.rs: do_train, count_pairs", "tokenizers/src/models/bpe/word.rs: Word::merge"]}
{"id": "C39", "title": "Training counts do not depend on chunking or order", "statement": "Feeding the same sequences to a trainer in any order and any partition over threads yields the same word counts.", "quantifier": "every list of sequences, permutation and partition", "why_tests_cant": "All schedules of a parallel reduce.", "anchors": ["tokenizers/src/models/bpe/trainer.rs: feed", "tokenizers/src/models/wordlevel/trainer.rs: feed"]}
{"id": "C40", "title": "WordPiece is greedy longest-match-first", "statement": "WordPiece::tokenize returns the segmentation in which every piece is the longest vocabulary entry (with continuation prefix after the first) starting at that point, or the single unknown token covering the whole word when some position has no match or the word is too long; offsets tile the word; it fails only when the unknown token is missing from the vocabulary.", "quantifier": "every vocabulary, prefix, limit and word", "why_tests_cant": "Longest match over all words and vocabularies.", "anchors": ["tokenizers/src/models/wordpiece/mod.rs: WordPiece::tokenize"]}
{"id": "C41", "title": "WordLevel is total", "statement": "WordLevel::tokenize returns exactly one token covering the word, with the word's id if it is known, else the unknown token's id, and fails exactly when both are missing.", "quantifier": "every vocabulary and word", "why_tests_cant": "Universal statement.", "anchors": ["tokenizers/src/models/wordlevel/mod.rs: tokenize"]}
{"id": "C42", "title": "Unigram finds a best-scoring segmentation", "statement": "The segmentation returned by the optimised and by the lattice Viterbi search has maximal score among all segmentations of the sentence into vocabulary pieces and unknown characters, where scores are accumulated left to right.", "quantifier": "every vocabulary, score assignment and sentence", "why_tests_cant": "Optimality over exponentially many segmentations.", "anchors": ["tokenizers/src/models/unigram/model.rs: encode_optimized, populate_nodes", "tokenizers/src/models/unigram/lattice.rs: viterbi"]}
{"id": "C43", "title": "Unigram pieces concatenate to the sentence", "statement": "The pieces returned by Unigram encoding concatenate exactly to the input, with contiguous offsets; fusing unknowns only merges adjacent unknown pieces; failure happens only when an unknown is needed and no unknown id is set.", "quantifier": "every vocabulary, sentence and setting", "why_tests_cant": "Universal statement over sentences with unknown characters anywhere.", "anchors": ["tokenizers/src/models/unigram/model.rs: encode_optimized, encode_unoptimized, tokenize"]}
{"id": "C44", "title": "The prefix trie finds exactly the vocabulary prefixes", "statement": "common_prefix_search(s) returns exactly the non-empty inserted strings that are prefixes of s, each once, in increasing length.", "quantifier": "every set of inserted strings, every query", "why_tests_cant": "Universal over sets of strings.", "anchors": ["tokenizers/src/models/unigram/trie.rs: Trie::{push,common_prefix_search}"]}
{"id": "C45", "title": "Post-processors add exactly the announced tokens", "statement": "For BERT, RoBERTa, ByteLevel, template (built through the builder) and sequences of them, processing with special tokens adds exactly added_tokens(is_pair) tokens for templates that use each given sequence once, and none without special tokens; the input tokens are kept in order.", "quantifier": "every encoding or pair, every template", "why_tests_cant": "Universal over templates and encodings.", "anchors": ["tokenizers/src/processors/{bert,roberta,template,sequence}.rs: added_tokens, process_encodings"]}
{"id": "C46", "title": "Post-processor layout, masks and type ids", "statement": "BERT yields [CLS] A [SEP] (B [SEP]) with type ids 0 for the first part and 1 for the second; RoBERTa yields <s> A </s> (</s> B </s>) with type ids 0; a template yields its pieces in order with the type ids written in it; added tokens have special mask 1, no word and offsets (0,0), and each token of a sequence is mapped to this sequence by token_to_sequence. The same holds for every overflowing encoding.", "quantifier": "every encoding, pair and overflowing list", "why_tests_cant": "Universal over encodings with nested overflowing.", "anchors": ["tokenizers/src/processors/*.rs", "tokenizers/src/tokenizer/mod.rs: PostProcessor::process"]}
{"id": "C47", "title": "Byte-level alphabet is a bijection and decodes back", "statement": "The byte-level alphabet maps the 256 bytes to 256 distinct printable characters, and decoding the byte-level image of any text split at arbitrary places gives back the text.", "quantifier": "all bytes, every text and every way of cutting it into tokens", "why_tests_cant": "Every text and every cut, including in the middle of multi-byte characters.", "anchors": ["tokenizers/src/pre_tokenizers/byte_level.rs: bytes_char, decode_chain, pre_tokenize"]}
{"id": "C48", "title": "Byte-fallback tokens decode to the original bytes", "statement": "Decoding the byte tokens <0xNN> of any text gives back the text; a run of byte tokens that is not valid UTF-8 gives one replacement character per byte token; other tokens are unchanged and in order.", "quantifier": "every token list", "why_tests_cant": "Runs of byte tokens of any length interleaved with other tokens.", "anchors": ["tokenizers/src/decoders/byte_fallback.rs: decode_chain", "tokenizers/src/models/bpe/model.rs: merge_word (byte_fallback)"]}
{"id": "C49", "title": "Metaspace decoding inverts Metaspace pre-tokenisation", "statement": "For text without the replacement character, pre-tokenised by Metaspace with splitting on and tokenised in any way, decoding gives the text back, less one leading space unless the scheme is Never. Without splitting the same holds for every cut whose first token has the replacement character at most in front.", "quantifier": "every text, every scheme, every way of cutting the splits into tokens", "why_tests_cant": "Leading spaces, consecutive spaces and unsplit mode all matter.", "anchors": ["tokenizers/src/pre_tokenizers/metaspace.rs: pre_tokenize, decode_chain"]}
{"id": "C50", "title": "CTC decoding collapses repeats and drops padding", "statement": "CTC decode_chain keeps one token per maximal run of equal tokens, removes the pad token, and, with cleanup on, replaces word delimiters by spaces.", "quantifier": "every token list", "why_tests_cant": "Universal over token lists.", "anchors": ["tokenizers/src/decoders/ctc.rs: decode_chain"]}
{"id": "C51", "title": "Decoders never fail, except BPE and Strip on known inputs", "statement": "No decoder returns an error. Every decoder built without BPE and Strip, sequences included, returns a token list for every token list. BPE panics exactly on an empty list; Strip panics exactly when some token consists only of fewer copies of its character than it has to cut. A sequence applies its decoders one after the other, and after Fuse the following decoders see the whole text as one token.", "quantifier": "every decoder configuration and token list, including empty lists and empty tokens", "why_tests_cant": "Panics occur only for special shapes (empty token, token consisting only of stripped characters, empty list).", "anchors": ["tokenizers/src/decoders/strip.rs", "tokenizers/src/decoders/bpe.rs", "tokenizers/src/decoders/*.rs"]}
{"id": "C52", "title": "WordPiece decoding glues continuation pieces", "statement": "WordPiece decode_chain (without cleanup) joins the pieces so that continuation pieces follow directly and new words are preceded by one space; decoding WordPiece's own tokens of words gives the words joined by single spaces.", "quantifier": "every list of words that tokenise without the unknown token and do not start with the continuation prefix", "why_tests_cant": "Universal over vocabularies and words.", "anchors": ["tokenizers/src/decoders/wordpiece.rs: decode_chain", "tokenizers/src/models/wordpiece/mod.rs"]}
{"id": "C53", "title": "FixedLength and script pre-tokenizers keep all text", "statement": "FixedLength(n), n > 0, cuts each section of text into chunks of exactly n characters except possibly the last and keeps every character; UnicodeScripts cuts each section into pieces that begin with a character of some script and contain only this script and characters of any script, neighbouring pieces having different scripts, and keeps every character from the first one with a script on.", "quantifier": "every text and length", "why_tests_cant": "Universal over texts.", "anchors": ["tokenizers/src/pre_tokenizers/fixed_length.rs", "tokenizers/src/pre_tokenizers/unicode_scripts/pre_tokenizer.rs"]}
{"id": "C54", "title": "Trimming offsets only shrinks them", "statement": "process_offsets (ByteLevel/RoBERTa trim_offsets) returns for each token a range inside the previous range with start <= end, changes nothing else, and does not change tokens without surrounding whitespace.", "quantifier": "every encoding", "why_tests_cant": "Universal over tokens/offsets incl. clamped cases.", "anchors": ["tokenizers/src/pre_tokenizers/byte_level.rs: process_offsets"]}
{"id": "C55", "title": "Batch encoding equals individual encoding then padding", "statement": "encode_batch returns, in input order, what encode returns for each input followed by batch padding, for every schedule of the parallel iterator; it fails if and only if some input fails.", "quantifier": "every batch and every execution order", "why_tests_cant": "All schedules.", "anchors": ["tokenizers/src/tokenizer/mod.rs: encode_batch", "tokenizers/src/utils/parallelism.rs"]}
{"id": "C56", "title": "Saving and loading a BPE model preserves it", "statement": "A BPE model made by the builder from a vocabulary with no token and no id twice (ids below 2^32 - 1) can be serialised, and deserialising the JSON value, with its fields in any order, gives a model with the same settings, the same token <-> id maps and the same merges in the same order of priority. It tokenizes every text to the same tokens (with the same random draws); when some merge was listed twice, this holds for all words of known characters without dropout. Duplicate ids lose a token and the id 2^32 - 1 overflows.", "quantifier": "every vocabulary, merge list, setting, order of the JSON fields, text, heap order and random draws", "why_tests_cant": "Universal over vocabularies, merge lists and field orders; the failing models have duplicated ids, and ranks are renumbered when merges are listed twice.", "anchors": ["tokenizers/src/models/bpe/serialization.rs", "tokenizers/src/models/mod.rs: OrderedVocabIter", "tokenizers/src/models/bpe/model.rs: BpeBuilder::build, tokenize"]}
{"id": "C57", "title": "Saving and loading a tokenizer preserves added tokens", "statement": "Serialising the added tokens and loading them into a tokenizer with the same model yields the same token <-> id maps and special set, for every history of additions.", "quantifier": "every history of additions on a model whose ids are 0..n-1", "why_tests_cant": "Ids are recomputed at loading time; must agree for all histories.", "anchors": ["tokenizers/src/tokenizer/serialization.rs", "tokenizers/src/tokenizer/added_vocabulary.rs: Serialize for AddedVocabulary"]}
{"id": "C58", "title": "Unigram byte fallback and unknown handling keep positions", "statement": "Unigram::tokenize gives every token offsets such that the offsets of the pieces tile the sentence, byte-fallback tokens share their piece's offsets and spell its UTF-8 bytes.", "quantifier": "every vocabulary and sentence", "why_tests_cant": "Universal over sentences.", "anchors": ["tokenizers/src/models/unigram/model.rs: tokenize"]}
{"id": "C59", "title": "Trainers respect the requested vocabulary size and number tokens without gaps", "statement": "A trained WordLevel has at most vocab_size tokens: special tokens first, then the words with at least the minimum frequency from the most frequent to the least, numbered 0, 1, 2, ... (if the special tokens are distinct and no words). A trained WordPiece has the tokens of BPE training, at most vocab_size unless special tokens and characters (in two forms) are more, with the prefix of its trainer. A trained Unigram has its unknown token, then the special tokens, then distinct pieces with falling scores that contain every character of the corpus and the initial alphabet; at most vocab_size tokens if there is room for a piece that is no character.", "quantifier": "every corpus and configuration, every outcome of seeding, counting and pruning", "why_tests_cant": "Depends on corpus sizes relative to the limit, on collisions between special tokens and words and on hash order.", "anchors": ["tokenizers/src/models/wordlevel/trainer.rs: do_train", "tokenizers/src/models/wordpiece/trainer.rs: train", "tokenizers/src/models/unigram/trainer.rs: do_train, finalize"]}
{"id": "C60", "title": "BERT normalisation isolates every CJK ideograph and removes control characters", "statement": "After BertNormalizer with handle_chinese_chars every character of the CJK Unified Ideographs blocks is surrounded by spaces; after clean_text no control character, NUL or U+FFFD remains and all whitespace is plain spaces.", "quantifier": "every text", "why_tests_cant": "All code points and texts.", "anchors": ["tokenizers/src/normalizers/bert.rs"]}
{"id": "C61", "title": "Mapping, case changes, prepending and appending keep every character's range", "statement": "map and lowercase/uppercase rewrite each character in place, every produced character keeping the original range of the one it comes from; clear empties the text; prepended (appended) characters carry the range of the first (last) character and the rest of the text is unchanged.", "quantifier": "every NormalizedString satisfying the alignment invariant, every mapping and every inserted text", "why_tests_cant": "Unbounded texts; case mappings may produce several characters of different byte lengths.", "anchors": ["tokenizers/src/tokenizer/normalizer.rs: map, lowercase, uppercase, prepend, append, clear"]}
{"id": "C62", "title": "What a whole encoding contains", "statement": "Encoding a text gives tokens whose offsets are ranges of that text between characters, with the type id of the sequence, a word number, special mask 0 and attention 1. A list of words gives the tokens of each word in turn, as for the word alone but with the number of the word. Without post-processor, truncation and padding a pair is the tokens of the first sequence followed by those of the second, each token being attributed to its sequence; with a BERT, RoBERTa or template post-processor the truncated sequences appear whole at the places the layout gives them. Padding is applied to what the tokenizer without padding returns.", "quantifier": "all tokenizers whose normalizer keeps alignments, whose pre-tokenizer cuts or rewrites the pieces and whose model returns tokens covering a part of their text, all texts, words and pairs", "why_tests_cant": "tests use a few tokenizers and texts; the claim ranges over every composition of components and every text", "anchors": ["tokenizers/src/tokenizer/mod.rs: TokenizerImpl::encode, encode_single_sequence, post_process", "tokenizers/src/tokenizer/pre_tokenizer.rs: into_encoding"]}
{"id": "C63", "title": "Encoding repeats the segmentation of training", "statement": "With a BPE trained without prefix and suffix, the tokens of any text of known characters are its characters after applying the learnt merges one after the other in learning order; in particular every word of the training corpus is encoded exactly as it stood segmented when training ended.", "quantifier": "every corpus within the size, every text of known characters, every order of ties", "why_tests_cant": "Training merges words in place, encoding uses a heap of candidate merges: two different algorithms must agree on every word.", "anchors": ["tokenizers/src/models/bpe/trainer.rs: do_train", "tokenizers/src/models/bpe/word.rs: merge, merge_all", "tokenizers/src/models/bpe/model.rs: tokenize"]}
{"id": "C64", "title": "A trained model knows the words it was trained on", "statement": "WordLevel: a word that is frequent enough becomes one token, itself, if all such words fit. WordPiece (no alphabet limit, with prefix, no suffix): every word of the corpus within the length limit is cut into known pieces. BPE (no alphabet limit): the tokens of every word of the corpus tile it, each with the text at its place. Unigram: the tokens of every word of the corpus concatenate to it and none is the unknown token.", "quantifier": "every corpus and configuration, every word of the corpus", "why_tests_cant": "Depends on which forms of characters training puts into the vocabulary and on which of them encoding looks up, for every word.", "anchors": ["tokenizers/src/models/bpe/trainer.rs: do_train", "tokenizers/src/models/wordpiece/trainer.rs: train", "tokenizers/src/models/wordlevel/trainer.rs: do_train", "tokenizers/src/models/unigram/trainer.rs: finalize"]}
{"id": "C65", "title": "Every pre-tokenizer cuts the text as documented and never fails", "statement": "Any pre-tokenizer or sequence of them (regular expressions returning ordered matches, FixedLength not 0), applied to any pre-tokenized text: it succeeds; sections already tokenized are left alone; every other section becomes, in order, the pieces its documentation promises: whitespace and delimiters removed around the longest runs, digits or punctuation isolated, merged with their neighbour or grouped as the behaviour says, BERT = both, byte-level images of the regex pieces, a piece per replacement character for Metaspace; and every piece still points inside the original text, so the tokens made from it do.", "quantifier": "every pre-tokenizer configuration, nesting of sequences and text, in any state of pre-tokenization", "why_tests_cant": "Quantifies over all configurations, compositions and texts, and over the regex engine and character tables.", "anchors": ["tokenizers/src/pre_tokenizers/mod.rs: PreTokenizerWrapper", "tokenizers/src/pre_tokenizers/{bert,delimiter,digits,punctuation,sequence,split,whitespace,metaspace,byte_level,fixed_length}.rs", "tokenizers/src/tokenizer/pre_tokenizer.rs: split, normalize"]}
{"id": "C66", "title": "Saving and loading any model preserves it", "statement": "Every kind of model (BPE, WordPiece, WordLevel, Unigram) with a vocabulary that can be written (no token or id twice, finite scores) can be serialised; deserialising the JSON value as a model of unknown kind gives a model of the same kind with the same vocabulary and settings, whatever the order of the fields, and also when the field \"type\" is missing as in files of older versions. WordPiece and WordLevel models loaded this way tokenize every text alike. A Unigram model with a score that is not finite cannot be loaded back.", "quantifier": "every model with a vocabulary that can be written; every order of the fields; with and without the type", "why_tests_cant": "Universal over models; without a type the kind is found by trying all the kinds in turn, so a wrong kind could accept the file of another.", "anchors": ["tokenizers/src/models/mod.rs: ModelWrapper", "tokenizers/src/models/{bpe,wordpiece,wordlevel,unigram}/serialization.rs"]}
{"id": "C67", "title": "Vocabulary files are read back as written", "statement": "A BPE model written to vocab.json and merges.txt, a WordLevel model written to vocab.json, and a WordPiece model written to vocab.txt are the same models when built from these files with the same settings, provided that every merge or token fits in a line (no space or end of line in the parts of a merge, no header-like first part, no trailing carriage return; for WordPiece no trailing whitespace and ids 0..n-1). Each condition is needed: otherwise the files cannot be loaded, a merge is lost, or ids change.", "quantifier": "every vocabulary, merge list and order of the JSON fields", "why_tests_cant": "Universal over vocabularies; the failing ones contain whitespace, carriage returns, header-like tokens or holes in the ids.", "anchors": ["tokenizers/src/models/bpe/model.rs: save, read_file, convert_merges_to_hashmap", "tokenizers/src/models/wordlevel/mod.rs: save, read_file", "tokenizers/src/models/wordpiece/mod.rs: save, read_file"]}
{"id": "C68", "title": "Every normalizer does what it documents and keeps the alignment", "statement": "On every text whose characters all come from a non-empty range of the original, each of the fourteen normalizers and any sequence of them succeeds, produces exactly its documented result character by character (which characters are kept, rewritten, expanded, replaced or inserted, and the original range each carries), leaves the original text untouched and yields a text on which any further normalizer can run.", "quantifier": "every normalizer configuration (non-empty Prepend, Replace without an empty match at the start), every sequence, every text, every regex engine and Unicode table respecting their contract", "why_tests_cant": "Unbounded texts and sequences; all tables and engines.", "anchors": ["tokenizers/src/normalizers/mod.rs", "tokenizers/src/normalizers/bert.rs", "tokenizers/src/normalizers/precompiled.rs", "tokenizers/src/normalizers/replace.rs", "tokenizers/src/normalizers/strip.rs", "tokenizers/src/normalizers/unicode.rs", "tokenizers/src/normalizers/utils.rs", "tokenizers/src/normalizers/byte_level.rs", "tokenizers/src/normalizers/prepend.rs"]}
{"id": "C69", "title": "A byte-level BPE tokenizer loses nothing", "statement": "Tokenizer with no normalizer, a ByteLevel pre-tokenizer without prefix space (alone or after splits, digits, punctuation or fixed-length cuts that remove nothing), a BPE model without affixes whose vocabulary has the 256 byte characters, the ByteLevel decoder, and added tokens that take no blanks and that the decoder leaves alone: every text can be encoded, and decoding the ids gives back exactly this text. With a post-processor putting special tokens around it and decoding without special tokens the same holds, unless special tokens are written in the text. Each condition is needed.", "quantifier": "every text, vocabulary, merges, dropout draws, ignore_merges, regex engine, list of added tokens, offset type", "why_tests_cant": "Round trip of the whole pipeline over all texts (any Unicode, cut inside characters), all vocabularies and all histories of added tokens.", "anchors": ["tokenizers/src/tokenizer/mod.rs: encode, decode", "tokenizers/src/pre_tokenizers/byte_level.rs", "tokenizers/src/models/bpe/model.rs: tokenize", "tokenizers/src/tokenizer/added_vocabulary.rs: extract_and_normalize"]}
{"id": "C70", "title": "A byte-fallback BPE tokenizer (Llama style) loses nothing", "statement": "Tokenizer with the normalizers Prepend(mark) and Replace(space by mark), no pre-tokenizer, a BPE model with byte fallback whose vocabulary has the mark and the 256 byte tokens and whose merges stay clear of byte tokens, the decoder Replace(mark by space), ByteFallback, Fuse, Strip(one leading space), and added tokens matched in the raw text without stripping: every text without a mark in which no added token is written can be encoded, also when characters are unknown, and decoding the ids gives back exactly this text. With special tokens put around it by the post-processor and decoding without special tokens the same holds. On any other text the result is known exactly: every mark becomes a space, and every section of text between added tokens gets a space in front, except at the start. Each condition is needed.", "quantifier": "every text, vocabulary, merges, dropout draws, list of added tokens, offset type, number of specials", "why_tests_cant": "Round trip of the whole pipeline over all texts (any Unicode, unknown characters included), all vocabularies and all histories of added tokens.", "anchors": ["tokenizers/src/tokenizer/mod.rs: encode, decode", "tokenizers/src/normalizers/{prepend,replace}.rs", "tokenizers/src/models/bpe/model.rs: merge_word", "tokenizers/src/decoders/{byte_fallback,fuse,strip}.rs", "tokenizers/src/tokenizer/added_vocabulary.rs: extract_and_normalize"]}
{"id": "C71", "title": "Saving and loading normalizers, pre-tokenizers, post-processors and decoders preserves them", "statement": "Every normalizer, pre-tokenizer, decoder and post-processor that can be made, sequences nested to any depth included, is the same component after being serialised and deserialised, whatever the order of the fields (the special tokens of a template are a map; the loaded post-processor adds as many tokens and gives the same encodings). Components whose reader does not look at the type also load without it. Whatever loads can be saved and loaded again. Loading any value never panics, except a normalizer of type Precompiled that cannot be read. Not true: a file of an older version with add_prefix_space false for Metaspace is refused; no object of type Delimiter loads; a wrong type can load as another kind; a template changed by a setter counts other added tokens after loading.", "quantifier": "every component configuration and nesting, every order of the fields, every JSON value for loading", "why_tests_cant": "Universal over configurations and JSON values; the kind is found by names and by trying the kinds in turn, so a wrong kind could accept the file of another.", "anchors": ["tokenizers/src/normalizers/mod.rs: NormalizerWrapper", "tokenizers/src/pre_tokenizers/mod.rs: PreTokenizerWrapper", "tokenizers/src/decoders/mod.rs: DecoderWrapper", "tokenizers/src/processors/mod.rs: PostProcessorWrapper", "tokenizers/src/utils/mod.rs: impl_serde_type", "tokenizers/src/pre_tokenizers/metaspace.rs: Deserialize", "tokenizers/src/processors/template.rs: TemplateProcessingDeserializer"]}
{"id": "C72", "title": "A tokenizer saved and loaded again answers every call alike", "statement": "A tokenizer made by any sequence of calls (setting normalizer, pre-tokenizer, post-processor, decoder, truncation, padding; adding tokens and special tokens), in which tokens of equal content are equal, can be written to tokenizer.json, and what is written loads again, in whatever order the fields of its objects come. The loaded tokenizer gives the same encodings for every input (alone or in batches), the same text for every list of ids, the same ids and tokens, vocabulary, added tokens and parameters; only encode_special_tokens is back at its default. A file that loads has a model, no field but the nine known ones, and version 1.0 if any. A model alone is enough. Loading panics only for a Precompiled normalizer that cannot be read and for the merges of a BPE model.", "quantifier": "all models, components, added tokens, histories of calls, truncation and padding parameters; all rearrangements of the file; all inputs to encode and decode afterwards; all JSON values for what loading accepts and where it panics", "why_tests_cant": "Tests save and load a few shipped tokenizers and compare a few encodings; the claim is about every history of calls and every later input, and loading rebuilds the added tokens by adding them again in order of their ids.", "anchors": ["tokenizers/src/tokenizer/serialization.rs: Serialize, TokenizerVisitor", "tokenizers/src/tokenizer/mod.rs: TokenizerImpl::{from_str, to_string, save, from_file}", "tokenizers/src/tokenizer/added_vocabulary.rs: Serialize, add_tokens", "tokenizers/src/utils/truncation.rs: TruncationParams", "tokenizers/src/utils/padding.rs: PaddingParams"]}
{"id": "C73", "title": "The n best segmentations of a text are the n best segmentations", "statement": "Asking a Unigram lattice for its n best paths (as subword regularisation with nbest_size does) ends on every text that can be segmented, and gives at most n paths that read as segmentations of the text, no two the same. On texts of at most 16 characters, if fewer than n come back they are all the segmentations there are. All this for any scores, NaN included. If the scores of the tokens that occur in the text can be compared and are added exactly, they come from the best to the worst, the first one is a best segmentation, and (up to 16 characters, where the agenda is never cut) no segmentation that was left out is better than one that was returned.", "quantifier": "all vocabularies with scores, texts, n, and behaviours of the priority queue among equal elements", "why_tests_cant": "The search is A* over a lattice with exponentially many paths and an agenda that is cut when large; duplicates, omissions and wrong order depend on vocabulary and text.", "anchors": ["tokenizers/src/models/unigram/lattice.rs: Lattice::nbest, viterbi", "tokenizers/src/models/unigram/model.rs: populate_nodes"]}
{"id": "C74", "title": "Expected counts and samples of a Unigram model are those of its segmentations", "statement": "A text has finitely many segmentations. Computing the marginals of a text never panics when there is a count for every token. With exact arithmetic it adds to the count of each token the frequency of the text times the expected number of uses of the token, each segmentation weighted by its likelihood divided by that of all of them, and returns the frequency times the logarithm of the sum of the likelihoods. Sampling with smoothing parameter 1 returns each segmentation of the text with a chance equal to its likelihood divided by the sum of all likelihoods, and nothing else. Leaving out summands that are smaller by a factor of exp(50) never makes a sum of two terms too large and makes it too small by a factor of at most 1 - exp(-50).", "quantifier": "all vocabularies with scores, texts, frequencies and counts; all lists of the segmentations; all sequences of random draws", "why_tests_cant": "The number of segmentations is exponential in the length of the text; the code never lists them, it sums over a graph forwards and backwards, and no finite set of texts shows that the two agree.", "anchors": ["tokenizers/src/models/unigram/lattice.rs: log_sum_exp, Lattice::populate_marginal, sample, sample_token", "tokenizers/src/models/unigram/trainer.rs: run_e_step"]}
{"id": "C75", "title": "Training a Unigram model seeds, counts, prunes and keeps the pieces that the corpus calls for", "statement": "The seeds are every character of the corpus, weighted by the number of times it occurs, and parts of the corpus of 2 to max_piece_length characters; a part that is left out is no more frequent than any that is taken, and the scores are logarithms of shares of the total. In the E step, with exact arithmetic, the count of each piece is the sum over the corpus of the expected number of its uses, whatever the parallel schedule; otherwise it gives counts or panics on a NaN. Pruning keeps the unknown token, every piece that can be written in one way only, and the pieces with the greatest losses, where the loss of a piece is that of writing its uses in the corpus with the second best segmentation of the piece; the pieces keep their scores, none is repeated, and their number is that of the target when a piece with a loss is dropped. When training ends, the tokens are the unknown and special tokens, all characters of the corpus and of the initial alphabet, and parts of words, each once; every corpus word is then written without the unknown token. Training can panic (a word with the text <UNK>) and can go on for ever (sizes below ten).", "quantifier": "all corpora, trainer settings, lists of a suffix array, arithmetics, parallel schedules, numbers of rounds and behaviours of the queue", "why_tests_cant": "The trainer combines floating point sums over exponentially many segmentations, parallel reductions and an unbounded loop; tests train on one or two small corpora and check a handful of pieces.", "anchors": ["tokenizers/src/models/unigram/trainer.rs: make_seed_sentence_pieces, run_e_step, run_m_step, prune_sentence_pieces, do_train, finalize", "tokenizers/src/models/unigram/lattice.rs: populate_marginal, nbest, viterbi"]}
{"id": "C76", "title": "A template written as text means what is documented", "statement": "Reading a template never panics. A text is read as pieces exactly when it consists of pieces with one space between each two: $, $A, $a for the first sequence, $B, $b for the second, $n for the first with type id n, any other text without a colon for the special token of that name, each perhaps followed by a colon and a type id of 32 bits; anything else is an error. Every template whose names have no colon, no space and no $ in front can be written and is read back as it was; other names cannot be written. A list of pieces is read as their text is. A post-processor is built from two texts exactly when both can be read, the second one uses both sequences and all special tokens are given. The documented templates of BERT and RoBERTa do to every input what BertProcessing and RobertaProcessing (without trimming) do. A template with two spaces in a row needs a special token with an empty name. TemplateProcessing::default() loses the second text of a pair.", "quantifier": "all texts, lists of texts, templates, names, type ids and inputs", "why_tests_cant": "There are infinitely many texts, with any Unicode characters and numbers around 2^32; a unit test reads a dozen.", "anchors": ["tokenizers/src/processors/template.rs: Piece::extract_id, Piece::try_from, Template::try_from, Tokens::from, TemplateProcessingBuilder, TemplateProcessing::default", "tokenizers/src/processors/bert.rs: BertProcessing::process_encodings", "tokenizers/src/processors/roberta.rs: RobertaProcessing::process_encodings"]}
{"id": "C77", "title": "Training a tokenizer trains it on the words it will be asked about", "statement": "The words counted for a sequence are all that encoding the sequence asks the model: two models that agree on them encode it alike, and a sequence has words exactly when it can be encoded. A file that is read without errors is trained on line by line, each line with its ending, nothing lost. Training from files is training on their lines in order; a file that cannot be opened, or a sequence that cannot be pre-tokenised, is an error that changes nothing; an error of reading later on is returned although the model has then been replaced by one trained on what came before. After training the model is what the trainer makes of the counted words, the special tokens of the trainer have been added and nothing else has changed. BPE and word-level training gives the same tokenizer for any order of the sequences, any schedule and any hash order, and BPE training never fails on sequences that can be encoded. In a tokenizer without added tokens, each special token has an id afterwards (the k-th special token of a BPE trainer the id k), ids are not shared, and every sequence of the corpus without special tokens is encoded with the answers of the new model to counted words: for word-level models with room for all words into its words, for BPE into tokens of the vocabulary. Tokens added before training keep ids that the new model may give to others.", "quantifier": "all tokenizers, trainers, corpora, files with any bytes and errors, parallel schedules and hash orders", "why_tests_cant": "Corpora, file contents and schedules are unbounded; a unit test trains once on one file and looks at the size of the vocabulary.", "anchors": ["tokenizers/src/tokenizer/mod.rs: TokenizerImpl::train, train_from_files, Trainer", "tokenizers/src/utils/iter.rs: ResultShunt, LinesWithEnding", "tokenizers/src/models/bpe/trainer.rs: Trainer for BpeTrainer", "tokenizers/src/models/wordlevel/trainer.rs: Trainer for WordLevelTrainer"]}
{"id": "C78", "title": "Parallelism is used when it was asked for, and not after a fork", "statement": "The environment variable TOKENIZERS_PARALLELISM switches parallelism off exactly with one of the documented words, in capitals or not. In one thread, an iterator runs in parallel exactly if its condition holds and the last set_parallelism, or the environment if there was none, says so. With any number of threads and any schedule, nothing panics; after set_parallelism(false) nothing runs in parallel until it is switched on again; has_parallelism_been_used is true once a parallel iterator (over a collection or a bridge) has started, stays true, and is true only if one has started or is about to. A process that has run such an iterator and has configured nothing never runs anything in parallel after a fork unless it asks for it; what was configured stays. Iterations over chunks are not recorded and escape the fork handler.", "quantifier": "all values of the environment variable, programs of any number of threads, schedules and fork points", "why_tests_cant": "Schedules and fork points cannot be enumerated by a test, and the variables are process-wide.", "anchors": ["tokenizers/src/utils/parallelism.rs: get_parallelism, set_parallelism, is_parallelism_configured, has_parallelism_been_used, maybe_par_iter, maybe_par_bridge, maybe_par_chunks", "bindings/python/src/lib.rs: child_after_fork"]}
{"id": "C79", "title": "A Metaspace tokenizer gives back the text it was given", "statement": "A tokenizer without normalizer that cuts with Metaspace (any replacement character, any prepend scheme), over a model whose tokens for each word spell the word: every text without the replacement character can be encoded, and decoding the ids with the Metaspace decoder gives its parts in order, the added tokens as written, a space put before a later part only by the scheme Always. A text in which no added token is written comes back as it was, except that one leading space is lost unless the scheme is Never. With special tokens put around the text, decoding without special tokens gives the same. Unigram models that know the characters of the text (the unknown token not being written in it) and BPE models that know them are such models. A replacement character in the text comes back as a space, and the unknown token written twice in the text comes back once.", "quantifier": "all texts, vocabularies, scores, merges, replacement characters, prepend schemes, added tokens and histories of adding them", "why_tests_cant": "Texts and vocabularies are unbounded; the round trip goes through added-token splitting, cutting at marks, the best segmentation and decoding, and examples only show it for the words of one vocabulary.", "anchors": ["tokenizers/src/pre_tokenizers/metaspace.rs: Metaspace::pre_tokenize, decode_chain", "tokenizers/src/models/unigram/model.rs: Unigram::tokenize", "tokenizers/src/models/bpe/model.rs: BPE::tokenize", "tokenizers/src/tokenizer/added_vocabulary.rs: extract_and_normalize", "tokenizers/src/tokenizer/mod.rs: encode, decode"]}
{"id": "C80", "title": "A trained tokenizer can be saved, and loads as the same tokenizer", "statement": "Training a tokenizer to which no token was added yet, with the trainer of its kind of model (BPE, WordPiece, WordLevel, Unigram), gives a tokenizer that can be saved; the file loads, whatever the order of its fields, and no call on the loaded tokenizer gives another answer than the call on the trained one (with encode_special_tokens off). A trainer of another kind gives an error and changes nothing. If a token was added before training, it may have another id after saving and loading.", "quantifier": "all corpora, cuts of the corpus between threads, trainers, special tokens, configurations of the tokenizer, orders of the fields of the file", "why_tests_cant": "Corpora and vocabularies are unbounded and the saved vocabulary depends on every counted pair; that a trained model meets what saving and loading need (distinct merges, ids without holes, texts that can be written) is an invariant of training.", "anchors": ["tokenizers/src/models/mod.rs: TrainerWrapper::train", "tokenizers/src/tokenizer/mod.rs: train, to_string, from_str", "tokenizers/src/tokenizer/serialization.rs", "tokenizers/src/models/bpe/trainer.rs: do_train", "tokenizers/src/tokenizer/added_vocabulary.rs: add_tokens"]}
{"id": "C81", "title": "Python inputs mean what is documented", "statement": "In Python, encode and encode_batch (and their fast and async variants) encode a str as a text, a list or tuple of str as words if is_pretokenized, and a list or tuple of two sequences as a pair in batches; everything else is a TypeError for the whole call. An input has at most one meaning. async_encode_batch gives what encode_batch gives, except for a list of two words with is_pretokenized, which it rejects; async_encode gives offsets in bytes where encode gives characters; a numpy array of dtype U is not encoded as the list of its words.", "quantifier": "all Python objects built from str, list, tuple, arrays and other objects, all batches, tokenizers and schedules", "why_tests_cant": "The objects are unbounded trees and the readers try several forms one after the other; that no object is taken for another is a statement about all of them.", "anchors": ["bindings/python/src/tokenizer.rs: TextInputSequence, PreTokenizedInputSequence, TextEncodeInput, PreTokenizedEncodeInput, encode, encode_batch, encode_batch_fast, async_encode, async_encode_batch, async_encode_batch_fast", "bindings/python/py_src/tokenizers/__init__.py"]}
{"id": "C82", "title": "Indexing a NormalizedString follows Python", "statement": "In Python, indexing or slicing a NormalizedString gives the NormalizedString of the characters that Python would give for the normalized text, with the piece of the original text they come from, for positions counted from the start and, in ASCII texts, from the end. An index after the end gives None, one before the start is an error. In other texts counting from the end counts bytes; the step is ignored; empty slices give None, panic or an empty string.", "quantifier": "all normalized strings, indices and slices", "why_tests_cant": "Positions convert between bytes and characters of arbitrary Unicode text and between normalized and original text.", "anchors": ["bindings/python/src/utils/normalization.rs: PyRange::to_range, slice", "tokenizers/src/tokenizer/normalizer.rs: slice, char_to_bytes"]}
{"id": "C83", "title": "Training from a Python iterator uses every text once and in order", "statement": "train_from_iterator with an iterator of str and of batches of str is training on all the texts in order, however they are batched and whatever the size of the internal buffer. An element that is not text ends the reading with its error after all texts before it. In every case of an error an exception is raised and the tokenizer is what training on a prefix of the texts makes of it; if the iterator itself raises, up to 255 texts that it gave before are missing from that prefix.", "quantifier": "all iterators (sequences of str, batches, other objects and exceptions), sizes of the buffer, trainers, tokenizers, ways of sharing the texts between threads", "why_tests_cant": "The position of an exception or of a batch relative to the buffer is unbounded; the loss only shows for some positions.", "anchors": ["bindings/python/src/utils/iterators.rs: PyBufferedIterator::refill, next", "bindings/python/src/tokenizer.rs: train_from_iterator", "tokenizers/src/utils/iter.rs: ResultShunt"]}
{"id": "C84", "title": "Objects lent to Python callbacks are never used after the call", "statement": "A NormalizedString or PreTokenizedString that is passed by reference to Python code (custom normalizers and pre-tokenizers, callbacks of PreTokenizedString.normalize) is accessed only while that call lasts and by one thread at a time, even if references are kept, passed to other threads and used inside callbacks or after exceptions; afterwards every use raises an exception. One thread always finishes if the callback of for_each does not read the same object; nothing panics if callbacks of filter, map and for_each neither raise nor use references.", "quantifier": "all programs of all threads, all nestings of callbacks, exceptions and references, all interleavings", "why_tests_cant": "The references are raw pointers behind a mutex: a use after the call is undefined behaviour and depends on the schedule and on where exceptions happen.", "anchors": ["bindings/python/src/utils/mod.rs: RefMutContainer, RefMutGuard", "bindings/python/src/utils/normalization.rs: PyNormalizedStringRefMut, filter, for_each, map", "bindings/python/src/utils/pretokenization.rs: PyPreTokenizedStringRefMut, normalize", "bindings/python/src/normalizers.rs: CustomNormalizer", "bindings/python/src/pre_tokenizers.rs: CustomPreTokenizer"]}
{"id": "C85", "title": "A tokenizer shared by Python threads behaves as if calls ran one at a time, without deadlock", "statement": "When several Python threads call methods of one Tokenizer, every call that returns gives the result it gives if the calls run one after the other in the order in which they return, each thread's calls in its own order; no call sees half of a change. All threads can always finish if no Python code runs inside the calls (no component written in Python, no training from an iterator), or if all calls only read, or if all calls release the GIL while they wait. With an iterator or a Python component and changes in another thread this is false: the threads wait for each other for ever.", "quantifier": "all numbers of threads, programs of calls, schedules, points at which Python passes the GIL on, both policies of the lock", "why_tests_cant": "Deadlocks and torn reads depend on the interleaving of several threads and on when the GIL is passed on.", "anchors": ["bindings/python/src/tokenizer.rs: PyTokenizer, read_inner, write_inner, encode, encode_batch, train, train_from_iterator, add_tokens", "bindings/python/src/utils/iterators.rs: refill", "bindings/python/src/normalizers.rs: CustomNormalizer", "bindings/python/src/pre_tokenizers.rs: CustomPreTokenizer"]}
{"id": "C86", "title": "Truncation and padding set from Python are what the arguments say, and can be read back", "statement": "enable_truncation and enable_padding accept exactly the documented keyword arguments with values of the documented kinds, in any order, use the documented defaults for those that are missing and ignore others; if they raise, the settings are unchanged. The dict that tokenizer.truncation or tokenizer.padding gives can be passed back, to this or to another tokenizer, and sets the same parameters.", "quantifier": "all dicts of keyword arguments in all orders, all tokenizers, all parameters that fit the machine", "why_tests_cant": "Combinations of optional arguments, their order and wrong values are too many to enumerate; the round trip must hold for every parameter.", "anchors": ["bindings/python/src/tokenizer.rs: enable_truncation, get_truncation, enable_padding, get_padding", "tokenizers/src/utils/truncation.rs: TruncationParams, AsRef", "tokenizers/src/utils/padding.rs: PaddingParams, AsRef"]}
{"id": "C87", "title": "AddedToken objects mean what their arguments say, survive pickling and are added as such", "statement": "AddedToken(content, ...) has the flags given, false by default, and is normalized unless special when normalized is not given. Pickling, copying and reading tokens back from a tokenizer give equal tokens with equal hashes. add_tokens adds exactly the tokens that the items (str or AddedToken) stand for and leaves the objects alone; add_special_tokens adds them as special tokens and makes the objects special; with any other item they raise and leave the tokenizer unchanged.", "quantifier": "all contents, flags, orders of arguments and of pickled state, lists of items with any repetition, tokenizers", "why_tests_cant": "Optional flags interact with the special flag, which may change later; lists may repeat objects.", "anchors": ["bindings/python/src/tokenizer.rs: PyAddedToken, add_tokens, add_special_tokens", "tokenizers/src/tokenizer/added_vocabulary.rs: AddedToken"]}
{"id": "C88", "title": "Components are shared between Python objects and tokenizers, and copies are not", "statement": "tokenizer.normalizer = n, Sequence([a, b]), s[i] and tokenizer.normalizer give objects that do the same thing now and after any later change of an attribute through any of them; setting an attribute or an item changes exactly the objects and tokenizers that share the changed component. A copy, a pickled object or a pickled tokenizer does the same thing and is not changed by, and does not change, the original; a component written in Python can be used but not copied. A change in place of the normalizer of a tokenizer has the effect of assigning the changed one, when no added token is searched as something else.", "quantifier": "all histories of making, nesting, indexing, assigning, changing, reading, copying and loading components and tokenizers, all behaviours of the components, all texts", "why_tests_cant": "Sharing depends on the whole history of calls; the number of histories is unbounded.", "anchors": ["bindings/python/src/normalizers.rs: PyNormalizer, PyNormalizerTypeWrapper, PySequence", "bindings/python/src/pre_tokenizers.rs: PyPreTokenizer, PySequence", "bindings/python/src/processors.rs: PySequence", "bindings/python/src/tokenizer.rs: set_normalizer, get_normalizer, __getstate__, __setstate__"]}
{"id": "C89", "title": "Decoding what a BERT tokenizer encoded gives back the words of the text", "statement": "Encoding a text with a WordPiece tokenizer and decoding the ids gives the words that the pre-tokenizer makes of the normalised text, separated by single spaces, with the unknown token for each word that cannot be spelt from the vocabulary; with the cleanup, the spaces before . ? ! and , are left out, and nothing else is changed. With [CLS] and [SEP] around the ids and special tokens skipped, the same text comes back (without the unknown words, when the unknown token is special). If all words can be spelt and the normalizer leaves the decoded text as it is, encoding it again gives the same ids.", "quantifier": "all texts without added tokens, all vocabularies, all normalizers, all pre-tokenizers (first part), all histories of added tokens", "why_tests_cant": "A statement about encode and decode together, for every text and vocabulary; tests compare a few sentences.", "anchors": ["tokenizers/src/models/wordpiece/mod.rs: tokenize", "tokenizers/src/decoders/wordpiece.rs: decode_chain, cleanup", "tokenizers/src/pre_tokenizers/bert.rs: BertPreTokenizer", "tokenizers/src/tokenizer/mod.rs: encode, decode", "bindings/python/py_src/tokenizers/implementations/bert_wordpiece.py: BertWordPieceTokenizer"]}
{"id": "C90", "title": "Decoding what a BPE tokenizer with an end of word suffix encoded gives back the words", "statement": "With a BPE model that marks the ends of words by a suffix such as </w>, and the BPE decoder with this suffix, encoding and decoding a text whose words are written in the alphabet of the vocabulary gives its words (those that the pre-tokenizer makes of the normalised text) with single spaces between them, whatever the merges are; encoding this again gives the same ids when the normalizer leaves it as it is.", "quantifier": "all texts without added tokens and with at least one word, all vocabularies and merges, all normalizers, all suffixes (with the pre-tokenizer of BERT: those that begin with a punctuation mark), all histories of added tokens", "why_tests_cant": "A statement about encode and decode together, for every text, vocabulary and list of merges.", "anchors": ["tokenizers/src/models/bpe/model.rs: merge_word, tokenize", "tokenizers/src/decoders/bpe.rs: decode_chain", "tokenizers/src/tokenizer/mod.rs: encode, decode", "bindings/python/py_src/tokenizers/implementations/char_level_bpe.py: CharBPETokenizer"]}
{"id": "C91", "title": "A WordLevel tokenizer has one id for each word, and decoding shows the words", "statement": "Encoding a text with a WordLevel model gives one id for each word that the pre-tokenizer makes of the normalised text; decoding without a decoder gives these words with single spaces between them, and the unknown token for each that is not in the vocabulary. If all are, and the normalizer leaves the result as it is, encoding it again gives the same ids.", "quantifier": "all texts without added tokens, all vocabularies with the unknown token, all normalizers, all pre-tokenizers (first part), all histories of added tokens", "why_tests_cant": "A statement about encode and decode together, for every text and vocabulary.", "anchors": ["tokenizers/src/models/wordlevel/mod.rs: tokenize, token_to_id, id_to_token", "tokenizers/src/tokenizer/mod.rs: encode, decode"]}
{"id": "C92", "title": "The page of EncodingVisualizer shows the text, its tokens and annotations", "statement": "EncodingVisualizer gives well-formed HTML in which every character of the text is shown once, in order, whatever the text is; the span of each character says whether it is in a token, the parity of the first token it is in and whether it is unknown, and it is inside the span of the last annotation over it and of no other. Two annotations have the same colour exactly if they have the same label (at most 18 labels). Every encoding of the text by a tokenizer can be shown.", "quantifier": "all non-empty texts, all encodings, all lists of annotations inside the text (overlapping or not), all labels without quotes", "why_tests_cant": "Texts with HTML characters, nesting of spans for every arrangement of tokens and annotations.", "anchors": ["bindings/python/py_src/tokenizers/tools/visualizer.py: EncodingVisualizer, CharState"]}
{"id": "C93", "title": "repr and str of the Python objects write the value", "statement": "repr(x) and str(x) of tokenizers, models, normalizers and the other objects write the value as an expression: names, named arguments, lists and dictionaries with commas between the elements, at most 99 (str: 5) elements and then dots. The counters of nested values do not get mixed up. repr never fails. If two values whose texts have no quotes have the same repr, they are the same expression; lists and dictionaries of fewer than 100 elements are equal.", "quantifier": "all values of serde's data model nested less than 200 (str: 20) deep, any number of elements at each level", "why_tests_cant": "The writer keeps one counter per level and looks at the last character written; whether commas and dots are right depends on everything written before.", "anchors": ["bindings/python/src/utils/serde_pyo3.rs: Serializer, to_string, repr", "bindings/python/src/{tokenizer,models,normalizers,pre_tokenizers,processors,decoders}.rs: __repr__, __str__"]}
{"id": "C94", "title": "Settings of the Node.js bindings mean what they say and what they mean in Python", "statement": "setTruncation and setPadding put in force exactly what the options say, with the documented defaults, and throw exactly when the direction is a text that is not left or right; the same options given to enable_truncation and enable_padding in Python lead to the same tokenizer, and AddedToken options to the same token. After any history of these calls, thrown errors included, truncation and padding are what the last call that sets them says and nothing else has changed. encode and encodeBatch give what Python gives for texts. slice(text, begin, end) gives the characters of a non-empty range inside the text, counting negative indexes from the end, an error for other ranges except (0, 0), never panics, and gives each token its text by its offsets.", "quantifier": "all tokenizers, options, histories of calls, texts and indexes", "why_tests_cant": "Options are optional fields with defaults scattered over conversions, and histories of settings are unbounded; tests try a few.", "anchors": ["bindings/node/src/tokenizer.rs: PaddingOptions, TruncationOptions, EncodeOptions, AddedToken, set_truncation, set_padding, encode, encode_batch", "bindings/node/src/encoding.rs: truncate, pad", "bindings/node/src/utils.rs: slice, merge_encodings", "bindings/node/src/normalizers.rs: bert_normalizer"]}
{"id": "C95", "title": "Promises of the Node.js bindings resolve, and to results of one state of the tokenizer", "statement": "When tokenizers do not share a model object, the promise of encode or encodeBatch resolves to what the call gives with the settings and the model that the tokenizer had at one moment in which the call was being computed, however setters, train and other calls run meanwhile; a promise that is awaited before anything is changed resolves to what the tokenizer gave at the call, even with shared models. Every program that awaits only promises it has made comes to its end with every promise resolved: no schedule is endless, and from every state that can be reached something can happen until all is done.", "quantifier": "all programs of calls, setters, trainings and awaits, all schedules of the threads of libuv and the workers of rayon, all numbers of both, both fairness policies of locks", "why_tests_cant": "The JavaScript thread, the thread pool and the workers interleave in unboundedly many ways; tests await each call at once.", "anchors": ["bindings/node/src/tokenizer.rs: encode, encode_batch, train, setters", "bindings/node/src/tasks/tokenizer.rs: EncodeTask, EncodeBatchTask", "bindings/node/src/models.rs: Model", "bindings/node/src/trainers.rs: train", "tokenizers/src/tokenizer/mod.rs: encode_batch", "tokenizers/src/models/bpe/trainer.rs: do_train"]}
{"id": "C96", "title": "The ready-made ByteLevelBPETokenizer loses no text", "statement": "ByteLevelBPETokenizer with options that change no text (no prefix space, no normalizer, no affixes), given a vocabulary with a token for every byte or trained on any texts with any size, minimal frequency and special tokens, gives every text back from the ids of its encoding, also after tokens are added that strip nothing and that the decoder leaves alone, and also with decode's default of leaving out special tokens when none is written in the text. Training ends without error, whatever the texts, and a trained tokenizer that is saved and loaded still loses nothing. Without merges the vocabulary, the dropout and the affixes are silently left out; an unknown unicode normalizer is an error.", "quantifier": "all texts, training corpora, vocabulary sizes, frequencies, special and added tokens, options in the class", "why_tests_cant": "The training corpus, the tokens and the text are all arbitrary; a test encodes a few sentences with one vocabulary.", "anchors": ["bindings/python/py_src/tokenizers/implementations/byte_level_bpe.py: ByteLevelBPETokenizer", "bindings/python/py_src/tokenizers/normalizers/__init__.py: unicode_normalizer_from_str", "tokenizers/src/pre_tokenizers/byte_level.rs: ByteLevel", "tokenizers/src/models/bpe/trainer.rs: do_train"]}
{"id": "C97", "title": "The ready-made BertWordPieceTokenizer marks texts and gives their words back", "statement": "BertWordPieceTokenizer accepts a vocabulary exactly if it has the separator and the classifier token, and then encoding puts these, with their ids in the vocabulary, around every text and pair, whatever tokens were added and whatever the truncation. With a vocabulary that has the unknown token, a text is encoded and decoded (by default) to the words of its normalised form, without those that cannot be spelt. Trained from scratch with the unknown token among the special tokens it does the same for every text, and for the training texts no word is left out unless it is longer than 100 characters or has a character outside the kept alphabet; but it never puts markers. Of AddedTokens given as arguments only the text counts.", "quantifier": "all texts, vocabularies, options, added tokens, truncations, training corpora, sizes and frequencies", "why_tests_cant": "Vocabulary, corpus, added tokens and text are arbitrary; a test uses one vocabulary file and one sentence.", "anchors": ["bindings/python/py_src/tokenizers/implementations/bert_wordpiece.py: BertWordPieceTokenizer", "tokenizers/src/models/wordpiece/mod.rs: WordPiece", "tokenizers/src/models/wordpiece/trainer.rs: WordPieceTrainer", "tokenizers/src/processors/bert.rs: BertProcessing", "tokenizers/src/decoders/wordpiece.rs: WordPiece"]}
{"id": "C98", "title": "The ready-made CharBPETokenizer gives the words of a text back", "statement": "CharBPETokenizer accepts a vocabulary and merges exactly if the merges can be made in the vocabulary, the dropout is between 0 and 1 and the name of the Unicode form is known. A text whose words (of its normalised form) are written in the alphabet of the vocabulary is encoded and decoded to these words with single spaces between them, whether special tokens are left out or not, whatever the dropout draws and whatever tokens like <unk> were added; and the decoded text is encoded to the same ids if the normalizer leaves it as it is. The same holds split at white space only if the suffix and the special tokens are not in the text. Trained from scratch with the suffix of the constructor, it does so for the training texts whose characters are in the kept alphabet. A vocabulary without merges, or merges without vocabulary, are silently not used. Of an AddedToken given for the unknown token only the text counts.", "quantifier": "all texts, vocabularies, merges, options, dropout draws, added tokens, training corpora, sizes and frequencies", "why_tests_cant": "Vocabulary, merges, corpus, draws, added tokens and text are arbitrary; a test uses one vocabulary file and one sentence.", "anchors": ["bindings/python/py_src/tokenizers/implementations/char_level_bpe.py: CharBPETokenizer", "tokenizers/src/models/bpe/model.rs: BPE", "tokenizers/src/models/bpe/trainer.rs: BpeTrainer", "tokenizers/src/decoders/bpe.rs: BPEDecoder", "bindings/python/src/models.rs: PyBPE::with_builder"]}
{"id": "C99", "title": "The ready-made SentencePiece tokenizers give texts back", "statement": "SentencePieceBPETokenizer accepts a vocabulary and merges exactly if the merges can be made in the vocabulary, the dropout is between 0 and 1, the unknown token is a text, fuse_unk is given and the replacement is one character; SentencePieceUnigramTokenizer accepts any vocabulary with a replacement of one character, and from_spm only files of Unigram models. With any of them, a text whose characters (of its normalised form, with marks for the spaces) are tokens, and in which neither the mark nor an added or unknown token is written, is encoded and decoded to its normalised form, without one leading space if add_prefix_space is set, whether special tokens are left out or not, whatever the dropout draws and whatever tokens were added. After training, the special tokens and the kept characters are tokens; with Unigram these are all characters of the training texts and of the initial alphabet, so every text written in them comes back.", "quantifier": "all texts, vocabularies, merges, scores, options, dropout draws, added tokens, training corpora and sizes", "why_tests_cant": "Vocabulary, scores, corpus, draws, added tokens and text are arbitrary; a test uses one vocabulary and one sentence.", "anchors": ["bindings/python/py_src/tokenizers/implementations/sentencepiece_bpe.py: SentencePieceBPETokenizer", "bindings/python/py_src/tokenizers/implementations/sentencepiece_unigram.py: SentencePieceUnigramTokenizer", "tokenizers/src/pre_tokenizers/metaspace.rs: Metaspace", "tokenizers/src/models/unigram/model.rs: Unigram", "tokenizers/src/models/unigram/trainer.rs: UnigramTrainer", "bindings/python/src/models.rs: PyBPE, PyUnigram"]}
{"id": "C100", "title": "Saving is deterministic, and a loaded file is saved as it was", "statement": "The file of a tokenizer depends on its contents only, not on the order in which hash maps list their entries, if no two tokens have one id. A tokenizer made by any calls can be saved, and whatever is loaded from the file, with the fields of its objects in any order, is saved as the same file again. A file from elsewhere that loads is changed by loading and saving once at most, however often this is repeated. The same holds for models alone, for vocab.json with merges.txt of BPE, for vocab.json of WordLevel and for vocab.txt of WordPiece.", "quantifier": "all tokenizers made by any sequence of calls, all orders of hash maps and of the fields of objects, all files that load, all numbers of rounds", "why_tests_cant": "Hash maps have random orders that differ between runs, and histories, contents and files are arbitrary; a test saves one tokenizer a few times.", "anchors": ["tokenizers/src/tokenizer/serialization.rs: Serialize/Deserialize for TokenizerImpl", "tokenizers/src/models/mod.rs: OrderedVocabIter", "tokenizers/src/models/bpe/serialization.rs", "tokenizers/src/tokenizer/added_vocabulary.rs: Serialize for AddedVocabulary", "tokenizers/src/processors/template.rs: Tokens", "tokenizers/src/utils/mod.rs: ordered_map"]}
{"id": "C101", "title": "Training through a tokenizer follows the settings", "statement": "When a tokenizer without added tokens is trained, directly or through a ready-made class, the model is what greedy merging of the counted words of the texts gives: it starts with the special tokens and the kept characters, merges the most frequent pair at every step, and stops when the vocabulary has the requested size or no pair has the requested frequency. Distinct special tokens get the ids 0, 1, 2, ... of the whole tokenizer in the order given, and adding them makes the vocabulary no larger than the model. Without affixes the vocabulary is not larger than requested, unless the special tokens and kept characters alone are more.", "quantifier": "all texts and ways to put their counts together, all settings of the trainer, all lists of special tokens, all pre-tokenizers and normalizers; for the ready-made classes all options", "why_tests_cant": "Texts, settings and the orders of hash maps and heaps are arbitrary; a test trains on one corpus with one setting.", "anchors": ["tokenizers/src/tokenizer/mod.rs: train", "tokenizers/src/models/bpe/trainer.rs: do_train", "tokenizers/src/models/wordpiece/trainer.rs: train", "bindings/python/py_src/tokenizers/implementations/byte_level_bpe.py", "bindings/python/py_src/tokenizers/implementations/bert_wordpiece.py", "bindings/python/py_src/tokenizers/implementations/char_level_bpe.py", "bindings/python/py_src/tokenizers/implementations/sentencepiece_bpe.py"]}
{"id": "C102", "title": "Models made from Python mean what their arguments say, and survive pickling", "statement": "BPE(...), WordPiece(...), WordLevel(...) and Unigram(...) succeed exactly when every argument has the right type, vocabulary and merges come both from memory or both from files, and the builder accepts; then each setting is the value of its argument or the documented default, in whatever order the keyword arguments are given. from_file(...) is the constructor on the content of the files. After any assignments every attribute has the last value assigned and nothing else has changed; a call then returns what the model with these attributes gives, if the cache was cleared after the assignments or there is none. A pickled and unpickled model is the same model, as long as its prefix was not assigned and its dropout is valid.", "quantifier": "all arguments of any type, all keyword arguments in any order, all files, all histories of assignments, clearing, resizing and calls on any threads", "why_tests_cant": "Arguments, their order and the histories of assignments and calls are unbounded; a test shows one constructor call and one pickle.", "anchors": ["bindings/python/src/models.rs: PyBPE, PyWordPiece, PyWordLevel, PyUnigram, __getstate__, __setstate__", "tokenizers/src/models/bpe/model.rs: BpeBuilder, clear_cache", "tokenizers/src/models/wordpiece/mod.rs: WordPieceBuilder", "tokenizers/src/models/wordlevel/mod.rs: WordLevelBuilder", "tokenizers/src/models/unigram/model.rs: Unigram::default"]}
{"id": "C103", "title": "Encodings as Python objects: arguments, copies and pickles", "statement": "Encoding.pad and Encoding.truncate succeed exactly for arguments of the right types and a direction that is left or right, with the documented defaults for those left out, and then do what C01, C03 and C04 say; ValueError means a text that is no side, and a call that raises leaves the encoding as it was. A call changes no encoding but the one it is made on: what overflowing, merge and copying give are new objects. Under any calls the arrays of every encoding stay parallel and each sequence has one range. A pickled and unpickled encoding is the same and answers every lookup the same, as long as its overflowing encodings are nested at most 62 deep; a deeper one is not read back.", "quantifier": "all encodings, all arguments of any type, all keyword arguments in any order, all histories of calls on any number of objects, all iteration orders of the map of ranges", "why_tests_cant": "Encodings, arguments and histories of calls are unbounded; a test pads, truncates or pickles one encoding once.", "anchors": ["bindings/python/src/encoding.rs: PyEncoding pad, truncate, merge, overflowing, __getstate__, __setstate__, lookups", "tokenizers/src/tokenizer/encoding.rs: Encoding (Serialize, Deserialize), truncate, pad, merge"]}
{"id": "C104", "title": "Trainers made from Python mean what their arguments say, and survive pickling", "statement": "A BpeTrainer, WordPieceTrainer or WordLevelTrainer made from Python has, for each documented attribute, the value its argument means, and the documented default otherwise, whatever the order of the arguments; the constructor succeeds exactly when every argument of the class has a meaning, and otherwise raises without panicking. Of the AddedToken objects of the program exactly those listed as special tokens are changed, by becoming special; when the call raises, at most a first part of them. An assignment to an attribute changes this attribute only, or nothing when it raises; assigning what the attribute gives changes nothing. Under any history the special tokens of a trainer are all special. A pickled trainer is read back equal, with the words it was fed, and under any history of assignments, reads and restored pickles of its class no attribute of an object panics. What is said of the constructor holds for UnigramTrainer too.", "quantifier": "all three classes, all keyword arguments in any order with values of any type, all stores of AddedToken objects with any sharing, all histories of assignments", "why_tests_cant": "Arguments, lists of special tokens (with repetitions and shared objects) and histories of assignments are unbounded; a test makes one trainer.", "anchors": ["bindings/python/src/trainers.rs: PyBpeTrainer, PyWordPieceTrainer, PyWordLevelTrainer (new, getters, setters), PyUnigramTrainer new, PyTrainer __getstate__, __setstate__", "tokenizers/src/models/bpe/trainer.rs: BpeTrainerBuilder, BpeTrainer", "tokenizers/src/models/wordpiece/trainer.rs: WordPieceTrainerBuilder", "tokenizers/src/models/wordlevel/trainer.rs: WordLevelTrainer"]}

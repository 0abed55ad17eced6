(** Lemmas for templates written as text. *)
From Coq Require Import DecimalN DecimalPos DecimalFacts.
From Verif Require Import Base EncodingModel ProcessorsModel TemplateTextModel TemplateTextSpec.

(** ** Splitting *)
Fixpoint joined (sep : char) (l : list str) : str :=
  match l with [] => [] | [s] => s | s :: l' => s ++ [sep] ++ joined sep l' end.
Lemma spaced_joined l : spaced l = joined 32 l.
Proof. induction l as [|s [|t l] IH]; [reflexivity|reflexivity|]. cbn [spaced joined] in *. rewrite IH. reflexivity. Qed.
Lemma split_ne sep s : forall cur, split_on sep cur s <> [].
Proof. induction s as [|c s IH]; intros cur; cbn; [discriminate|]. destruct (N.eqb c sep); [discriminate|apply IH]. Qed.
Lemma split_joined sep s : forall cur, joined sep (split_on sep cur s) = cur ++ s.
Proof.
  induction s as [|c s IH]; intros cur; cbn [split_on]; [cbn; rewrite app_nil_r; reflexivity|]. destruct (N.eqb_spec c sep) as [->|X].
  - specialize (IH []). pose proof (split_ne sep s []) as NE. destruct (split_on sep [] s) as [|x l]; [congruence|]. cbn [joined] in *. rewrite IH. reflexivity.
  - rewrite IH, <- app_assoc. reflexivity.
Qed.
Lemma split_clean sep s : forall cur, ~ In sep cur -> Forall (fun t => ~ In sep t) (split_on sep cur s).
Proof.
  induction s as [|c s IH]; intros cur NC; cbn [split_on]; [repeat constructor; exact NC|]. destruct (N.eqb_spec c sep) as [->|X]; [constructor; [exact NC|apply IH; intros []]|].
  apply IH. intros I. apply in_app_or in I. destruct I as [I|[<-|[]]]; congruence.
Qed.
Lemma split_app sep x : forall cur y, ~ In sep x -> split_on sep cur (x ++ y) = split_on sep (cur ++ x) y.
Proof.
  induction x as [|c x IH]; intros cur y NI; cbn [app split_on]; [rewrite app_nil_r; reflexivity|]. destruct (N.eqb_spec c sep) as [->|X]; [exfalso; apply NI; left; reflexivity|].
  rewrite IH by (intros I; apply NI; right; exact I). rewrite <- app_assoc. reflexivity.
Qed.
Lemma split_of_joined sep l : l <> [] -> Forall (fun t => ~ In sep t) l -> split_on sep [] (joined sep l) = l.
Proof.
  induction l as [|s [|t l] IH]; intros NE F; [congruence|..]; inversion F as [|? ? Hs F']; subst.
  - cbn [joined]. rewrite <- (app_nil_r s) at 1. rewrite split_app by exact Hs. reflexivity.
  - cbn [joined]. rewrite split_app by exact Hs. cbn [app split_on]. rewrite N.eqb_refl. f_equal. apply IH; [discriminate|exact F'].
Qed.

(** ** Numbers *)
Definition add_digit (n : N) (c : char) : N := (10 * n + (c - 48))%N.
Lemma fold_grows ds : forall acc, (acc <= fold_left add_digit ds acc)%N.
Proof. induction ds as [|c ds IH]; intros acc; cbn [fold_left]; [lia|]. specialize (IH (add_digit acc c)). unfold add_digit in *. lia. Qed.
Lemma digits_spec s : forall acc n, digits_u32 acc s = Some n <-> Forall digit s /\ n = fold_left add_digit s acc /\ (s = [] \/ (n < 2 ^ 32)%N).
Proof.
  change (2 ^ 32)%N with 4294967296%N. induction s as [|c s IH]; intros acc n; cbn [digits_u32 fold_left].
  - split; [intros X; injection X as <-; repeat split; auto|intros (_ & -> & _); reflexivity].
  - split.
    + intros H. destruct (N.leb_spec 48 c) as [L1|L1]; [|discriminate]. destruct (N.leb_spec c 57) as [L2|L2]; [|discriminate]. cbn [andb] in H. destruct (N.ltb_spec 4294967295 (acc * 10)) as [Q1|Q1]; [discriminate|]. destruct (N.ltb_spec 4294967295 (acc * 10 + (c - 48))) as [Q2|Q2]; [discriminate|].
      apply IH in H. destruct H as (F & E & B). replace (acc * 10)%N with (10 * acc)%N in * by lia. change (10 * acc + (c - 48))%N with (add_digit acc c) in *. split; [constructor; [unfold digit; lia|exact F]|]. split; [exact E|]. right. destruct B as [->|B]; [|exact B]. cbn [fold_left] in E. lia.
    + intros (F & E & B). inversion F as [|? ? D F']; subst. unfold digit in D. destruct B as [B|B]; [discriminate|]. pose proof (fold_grows s (add_digit acc c)) as G. unfold add_digit in G at 1.
      destruct (N.leb_spec 48 c); [|lia]. destruct (N.leb_spec c 57); [|lia]. cbn [andb]. destruct (N.ltb_spec 4294967295 (acc * 10)); [lia|]. destruct (N.ltb_spec 4294967295 (acc * 10 + (c - 48))); [lia|]. apply IH. split; [exact F'|]. replace (acc * 10 + (c - 48))%N with (add_digit acc c) by (unfold add_digit; lia). split; [reflexivity|right; exact B].
Qed.
Lemma parse_spec s n : parse_u32 s = Some n <-> number s n.
Proof.
  unfold parse_u32, number. destruct s as [|c s].
  - split; [discriminate|]. intros (ds & [<-|X] & NE & _); [congruence|discriminate].
  - destruct (N.eqb_spec c 43) as [->|NC].
    + split.
      * destruct (is_nil s) eqn:EN; [discriminate|]. intros H. apply digits_spec in H. destruct H as (F & E & B). exists s. assert (s <> []) by (intros ->; discriminate). repeat split; auto. destruct B; [congruence|assumption].
      * intros (ds & [X|X] & NE & F & E & B).
        -- subst ds. inversion F as [|? ? D _]; subst. unfold digit in D. lia.
        -- injection X as ->. destruct ds as [|d ds]; [congruence|]. cbn [is_nil]. apply digits_spec. auto.
    + split.
      * intros H. apply digits_spec in H. destruct H as (F & E & B). exists (c :: s). repeat split; auto; [discriminate|]. destruct B; [discriminate|assumption].
      * intros (ds & [X|X] & NE & F & E & B); [|congruence]. rewrite X. apply digits_spec. auto.
Qed.
Lemma number_fun s n n' : number s n -> number s n' -> n = n'.
Proof. intros H H'. apply parse_spec in H, H'. congruence. Qed.

(** ** Pieces *)
Lemma not_number c : c = 65%N \/ c = 97%N \/ c = 66%N \/ c = 98%N -> parse_u32 [c] = None.
Proof. intros [-> | [-> | [-> | ->]]]; reflexivity. Qed.
Lemma special_id s : hd_error s <> Some 36%N -> extract_id s = Some (PSpecial s 0).
Proof. destruct s as [|c s]; [reflexivity|]. cbn. intros H. destruct c as [|p]; [reflexivity|]. do 6 (destruct p as [p|p|]; try reflexivity). congruence. Qed.
Lemma seq_id t : extract_id (36%N :: t) = if list_eq_dec N.eq_dec t [] then Some (PSeq SeqA 0) else
  if list_eq_dec N.eq_dec t [65%N] then Some (PSeq SeqA 0) else if list_eq_dec N.eq_dec t [97%N] then Some (PSeq SeqA 0) else
  if list_eq_dec N.eq_dec t [66%N] then Some (PSeq SeqB 0) else if list_eq_dec N.eq_dec t [98%N] then Some (PSeq SeqB 0) else
  match parse_u32 t with Some n => Some (PSeq SeqA n) | None => None end.
Proof.
  destruct (list_eq_dec N.eq_dec t []) as [->|X0]; [reflexivity|]. destruct (list_eq_dec N.eq_dec t [65%N]) as [->|X1]; [reflexivity|]. destruct (list_eq_dec N.eq_dec t [97%N]) as [->|X2]; [reflexivity|].
  destruct (list_eq_dec N.eq_dec t [66%N]) as [->|X3]; [reflexivity|]. destruct (list_eq_dec N.eq_dec t [98%N]) as [->|X4]; [reflexivity|].
  destruct t as [|c [|d t]]; [congruence| |]; cbn [extract_id].
  - destruct c as [|p]; [reflexivity|]. do 7 (destruct p as [p|p|]; try reflexivity); congruence.
  - destruct c as [|p]; [reflexivity|]. do 7 (destruct p as [p|p|]; try reflexivity).
Qed.
Lemma id_spec s p : extract_id s = Some p <-> names s p.
Proof.
  assert (C : (exists t, s = 36%N :: t) \/ hd_error s <> Some 36%N).
  { destruct s as [|c t]; [right; discriminate|]. destruct (N.eq_dec c 36) as [->|NE]; [left; eauto|right; cbn; congruence]. }
  destruct C as [(t & ->)|NS].
  - rewrite seq_id. split.
    + repeat (destruct (list_eq_dec N.eq_dec t _) as [->|_]; [intros E; injection E as <-; constructor; auto|]). destruct (parse_u32 t) as [n|] eqn:EP; [|discriminate]. intros E. injection E as <-. constructor. apply parse_spec. exact EP.
    + intros H. inversion H as [|c D|c D|t' n D|s' D]; subst.
      * reflexivity.
      * destruct D as [->| ->]; reflexivity.
      * destruct D as [->| ->]; reflexivity.
      * apply parse_spec in D. repeat (destruct (list_eq_dec N.eq_dec t _) as [->|_]; [discriminate|]). rewrite D. reflexivity.
      * cbn in D. congruence.
  - rewrite special_id by exact NS. split.
    + intros E. injection E as <-. constructor. exact NS.
    + intros H. inversion H; subst; cbn in NS; congruence.
Qed.
Lemma piece_spec s p : piece_from s = Ok p <-> piece_text s p.
Proof.
  unfold piece_from. pose proof (split_joined 58 s []) as J. pose proof (split_clean 58 s [] (fun x => x)) as C. cbn [app] in J. split.
  - destruct (split_on 58 [] s) as [|id [|ty [|]]]; try discriminate; cbn [joined] in J.
    + destruct (extract_id id) as [q|] eqn:EI; [|discriminate]. intros E. injection E as <-. left. subst id. inversion C; subst. split; [assumption|]. apply id_spec. exact EI.
    + destruct (parse_u32 ty) as [n|] eqn:EP; [|discriminate]. destruct (extract_id id) as [q|] eqn:EI; [|discriminate]. intros E. injection E as <-. right. inversion C as [|? ? C1 C']; subst. inversion C' as [|? ? C2 _]; subst. exists id, ty, q, n. apply id_spec in EI. apply parse_spec in EP. repeat split; auto.
  - intros [[NC H]|(id & t & q & n & E & C1 & C2 & Hq & Hn & ->)].
    + assert (X : split_on 58 [] s = [s]) by (change s with (joined 58 [s]) at 1; apply split_of_joined; [discriminate|repeat constructor; exact NC]). rewrite X. apply id_spec in H. rewrite H. reflexivity.
    + assert (X : split_on 58 [] s = [id; t]) by (rewrite E; change (id ++ [58%N] ++ t) with (joined 58 [id; t]); apply split_of_joined; [discriminate|repeat constructor; assumption]). rewrite X. apply parse_spec in Hn. apply id_spec in Hq. rewrite Hn, Hq. destruct q; reflexivity.
Qed.
Lemma piece_calm s : piece_from s <> Panic.
Proof. unfold piece_from. destruct (split_on 58 [] s) as [|id [|ty [|]]]; try discriminate; [destruct (extract_id id); discriminate|]. destruct (parse_u32 ty); [|discriminate]. destruct (extract_id id); discriminate. Qed.
Lemma pieces_spec l : forall ps, template_from_pieces l = Ok ps <-> Forall2 piece_text l ps.
Proof.
  induction l as [|s l IH]; intros ps; cbn [template_from_pieces].
  - split; [intros E; injection E as <-; constructor|intros H; inversion H; reflexivity].
  - split.
    + intros E. destruct (piece_from s) as [p| |] eqn:EP; try discriminate. cbn [bind] in E. destruct (template_from_pieces l) as [qs| |] eqn:EL; try discriminate. cbn [bind] in E. injection E as <-. constructor; [apply piece_spec; exact EP|apply IH; reflexivity].
    + intros H. inversion H as [|? p ? qs H1 H2]; subst. apply piece_spec in H1. apply IH in H2. rewrite H1. cbn [bind]. rewrite H2. reflexivity.
Qed.
Lemma pieces_calm l : template_from_pieces l <> Panic.
Proof. induction l as [|s l IH]; cbn [template_from_pieces]; [discriminate|]. pose proof (piece_calm s). destruct (piece_from s); cbn [bind]; try congruence. destruct (template_from_pieces l); cbn [bind]; congruence. Qed.

(** ** Writing *)
Lemma digits_ok d : Forall digit (digits_of d).
Proof. induction d; cbn; constructor; auto; unfold digit; lia. Qed.
Lemma digits_ne d : d <> Decimal.Nil -> digits_of d <> [].
Proof. destruct d; cbn; congruence. Qed.
(** [Pos.of_uint_acc] reads the digits. *)
Lemma acc_value d : forall p, N.pos (Pos.of_uint_acc d p) = fold_left add_digit (digits_of d) (N.pos p).
Proof.
  induction d as [|d IH|d IH|d IH|d IH|d IH|d IH|d IH|d IH|d IH|d IH]; intros p; cbn [Pos.of_uint_acc digits_of fold_left]; [reflexivity|..]; rewrite IH; f_equal; unfold add_digit; lia.
Qed.
Lemma uint_value d : Pos.of_uint d = fold_left add_digit (digits_of d) 0%N.
Proof.
  induction d as [|d IH|d IH|d IH|d IH|d IH|d IH|d IH|d IH|d IH|d IH]; cbn [Pos.of_uint digits_of fold_left]; [reflexivity|exact IH|..]; rewrite acc_value; reflexivity.
Qed.
Lemma write_value n : value (write_number n) = n.
Proof. unfold value, write_number. change (fun n c => (10 * n + (c - 48))%N) with add_digit. rewrite <- uint_value. change (N.of_uint (N.to_uint n) = n). apply DecimalN.Unsigned.of_to. Qed.
Lemma write_ne n : write_number n <> [].
Proof. apply digits_ne. destruct n as [|p]; cbn [N.to_uint]; [discriminate|]. intros E. pose proof (DecimalPos.Unsigned.of_to p) as X. rewrite E in X. discriminate. Qed.
Lemma write_digits n : Forall digit (write_number n).
Proof. apply digits_ok. Qed.
Lemma write_is n : (n < 2 ^ 32)%N -> number (write_number n) n.
Proof. intros L. exists (write_number n). repeat split; [left; reflexivity|apply write_ne|apply write_digits|symmetry; apply write_value|exact L]. Qed.
Lemma write_lacks n c : ~ digit c -> ~ In c (write_number n).
Proof. intros H I. pose proof (write_digits n) as F. rewrite Forall_forall in F. exact (H (F c I)). Qed.
Lemma piece_written p : writable p -> piece_text (write_piece p) p.
Proof.
  assert (D : forall n, ~ In 58%N (write_number n)) by (intros n; apply write_lacks; unfold digit; lia).
  intros H. right. destruct p as [[|] n|name n]; cbn [writable write_piece] in *.
  - exists [36; 65]%N, (write_number n), (PSeq SeqA 0), n. split; [reflexivity|]. split; [cbn; intuition discriminate|]. split; [apply D|]. split; [constructor; left; reflexivity|]. split; [apply write_is; exact H|reflexivity].
  - exists [36; 66]%N, (write_number n), (PSeq SeqB 0), n. split; [reflexivity|]. split; [cbn; intuition discriminate|]. split; [apply D|]. split; [constructor; left; reflexivity|]. split; [apply write_is; exact H|reflexivity].
  - destruct H as (L & NC & _ & NS). exists name, (write_number n), (PSpecial name 0), n. split; [reflexivity|]. split; [exact NC|]. split; [apply D|]. split; [constructor; exact NS|]. split; [apply write_is; exact L|reflexivity].
Qed.
Lemma piece_unspaced p : writable p -> ~ In 32%N (write_piece p).
Proof.
  assert (D : forall n, ~ In 32%N (write_number n)) by (intros n; apply write_lacks; unfold digit; lia).
  intros H I. destruct p as [[|] n|name n]; cbn [writable write_piece] in *.
  - cbn in I. destruct I as [X|[X|[X|I]]]; try discriminate. exact (D n I).
  - cbn in I. destruct I as [X|[X|[X|I]]]; try discriminate. exact (D n I).
  - destruct H as (_ & _ & NS & _). apply in_app_or in I. destruct I as [I|I]; [exact (NS I)|]. cbn in I. destruct I as [X|I]; [discriminate|exact (D n I)].
Qed.

(** What [bulloak check --fix] keeps of a file, whatever reads Solidity. *)

From Coq Require Import List NArith Bool Arith Lia.
Import ListNotations.
From Verif Require Import Str StrLemmas Unicode Utils Hir HirTranslator Scaffold SpecHir SpecSol SolTree Check SpecCheck
  SpecFix SpecOrder SpecSharp Fs Cli SpecCli SpecReport SpecWhole WholeProofs FixLoop FixWhole SpecMend MendText.
From Verif Require Import ParserProofs.

Lemma adds_keeps : forall fns c src h k src', adds fns c src h k src' -> sublist src src'.
Proof.
  intros fns c src h k src' A. destruct A as [a b r -> _ _|k g s f a r _ _ -> _].
  - assert (forall x : str, a ++ b ++ [c_lbrace] ++ x = (a ++ b ++ [c_lbrace]) ++ x) as E
      by (intros x; rewrite <- !app_assoc; reflexivity).
    rewrite !E. apply sublist_app.
  - apply sublist_app.
Qed.

(** Two beginnings of a text, by their lengths in bytes. *)
Lemma prefix_bytes : forall (a b a' b' : str), a ++ b = a' ++ b' -> byte_len a <= byte_len a' ->
  exists m, a' = a ++ m /\ b = m ++ b'.
Proof.
  induction a as [|c a IH]; intros b a' b' E Hl; cbn [app] in E.
  - exists a'. auto.
  - destruct a' as [|c' a']; cbn [app] in E.
    + exfalso. pose proof (byte_len_length (c :: a)) as X. cbn [length] in X. cbn [byte_len] in Hl, X. lia.
    + injection E as <- E. cbn [byte_len] in Hl. destruct (IH b a' b' E) as (m & -> & ->); [lia|].
      exists m. auto.
Qed.

Section Keeps.
Context {U : Unicode} {P : SolParser} {R : Format}.

Lemma adds_all_keeps : forall fns l src pt src' pt', adds_all fns l src pt src' pt' -> sublist src src'.
Proof.
  intros fns l src pt src' pt' A.
  induction A as [src pt|k h l src pt src' pt' _ _ IH|k h l c src pt src1 pt1 src' pt' _ Ha _ _ IH].
  - apply sublist_refl.
  - exact IH.
  - eapply sublist_trans; [exact IH|]. exact (adds_keeps _ _ _ _ _ _ Ha).
Qed.

Lemma reordered_keeps : forall fns c moved src src', reordered fns c moved src src' ->
  exists before body after texts sep rest, src = before ++ body ++ after /\
    src' = before ++ join [c_nl; c_nl] texts ++ sep ++ rest ++ after /\
    Forall (fun t => exists x y, src = x ++ t ++ y) texts /\ (sep = [] \/ sep = notice) /\ byte_len rest = byte_len body /\
    S (byte_len (before ++ body)) = sc_end c /\ exists p ps, sc_parts c = p :: ps /\ byte_len before = item_start p.
Proof.
  intros fns c moved src src' X.
  destruct X as [parts own texts scratch p ps before b a after rest Hm Ho Ft _ Hp Hb Lb Ha La (x & y & _ & Lx & Lr)].
  destruct (prefix_bytes before b a after) as (body & -> & ->); [congruence|lia|].
  exists before, body, after, texts, (if length own =? length (sc_parts c) then [] else notice), rest.
  rewrite byte_len_app in *. splits; auto.
  - clear -Ft. induction Ft as [|g t own texts (x & y & E & _) Ft IH]; constructor; eauto.
  - destruct (length own =? length (sc_parts c)); auto.
  - lia.
  - exists p, ps. auto.
Qed.

Theorem mended_keeps : forall cfg w f out k, mended cfg w f out k ->
  exists n fns src pt src2 pt2, comparable w f n fns src pt /\ format_parsed src2 pt2 = Some out /\
    ((forall c, ~ In (UPContract c) pt) \/
     exists src0 src1 pt1, (src0 = src \/ exists c found, first_contract_is pt c /\ misnamed n c found /\
         replaced (lit "contract " ++ found) (lit "contract " ++ sanitize n) src src0) /\
       sublist src0 src1 /\
       (src2 = src1 \/ exists c before body after texts sep rest, first_contract_is pt1 c /\
          src1 = before ++ body ++ after /\
          src2 = before ++ join [c_nl; c_nl] texts ++ sep ++ rest ++ after /\
          Forall (fun t => exists x y, src1 = x ++ t ++ y) texts /\ (sep = [] \/ sep = notice) /\ byte_len rest = byte_len body /\
          S (byte_len (before ++ body)) = sc_end c /\ exists p ps, sc_parts c = p :: ps /\ byte_len before = item_start p)).
Proof.
  intros cfg w f out k (n & fns & src & pt & src1 & pt1 & src2 & pt2 & Hc & Hk & Ha & Hf).
  exists n, fns, src, pt, src2, pt2. split; [exact Hc|]. split; [exact Hf|].
  destruct Hk as [pt' Hb _|c lacking moved srcr ptr j src1 pt1 Hi _ _ _ _ _ Hr Hd]; [left; exact Hb|right].
  exists srcr, src1, pt1. split; [|split; [exact (adds_all_keeps _ _ _ _ _ _ Hd)|]].
  - destruct Hr as [_|found src' pt' Hm Hp _]; [left; reflexivity|right]. exists c, found. auto.
  - destruct Ha as [_|c' _ _ _|c' moved' src' pt' Hi' _ _ _ _ Ho _]; auto. right.
    destruct (reordered_keeps _ _ _ _ _ Ho) as (before & body & after & texts & sep & rest & X).
    exists c', before, body, after, texts, sep, rest. tauto.
Qed.

End Keeps.

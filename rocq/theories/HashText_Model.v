(** Model of the text form of a hash dictionary: /repo/gensim/corpora/hashdictionary.py 310-348 ([save_as_text]), 141-147 ([__len__], [keys]), with the
    dictionary of HashDictionary_Model.v.  The set [self[tokenid]] is sorted before it is used, so its order is of no importance. *)
From Verif Require Import Base Str HashDictionary_Model.
Local Open Scope nat_scope.

Definition word_df (w : pystr * nat) : pystr := fst w ++ str "(" ++ show_nat (snd w) ++ str ")".
(** 340-348 *)
Definition text_row (h : hashdict) (tokenid : nat) : pystr :=
  match isort str_leb (h_getitem h tokenid) with
  | [] => []
  | ws => let words_df := map (fun w => (w, dget_or (h_dfs_debug h) w 0)) ws in
          let words_df := map word_df (isort (fun a b => snd b <=? snd a) words_df) in
          show_nat tokenid ++ [chr_tab] ++ show_nat (dget_or (h_dfs h) tokenid 0) ++ [chr_tab] ++ join [chr_tab] words_df ++ [chr_nl]
  end.
Definition h_save_as_text (id_range : nat) (h : hashdict) : pystr := concat (map (text_row h) (seq 0 id_range)).

(** Model of the parameters of metrics: gensim/models/callbacks.py 134-144 ([Metric.set_parameters]), 218-226 and 249-259 ([CoherenceMetric]), 281-284 and 304-307
    ([PerplexityMetric]), 340-348 and 369-374 ([DiffMetric]), 407-415 and 437-442 ([ConvergenceMetric]).

    A metric is its attributes.  Simplifications: what is computed from the attributes a metric reads is an argument, [compute]. *)
From Verif Require Import Base Str.

Inductive kind : Type := Coherence | Perplexity | Difference | Convergence.
Definition compared : list pystr := [str "distance"; str "num_words"; str "n_ann_terms"; str "diagonal"; str "annotation"; str "normed"].
Definition shown : list pystr := [str "logger"; str "viz_env"; str "title"].
(** the attributes a constructor sets, in the order of its arguments (180, 264, 312, 379) *)
Definition fields (k : kind) : list pystr :=
  match k with
  | Coherence => [str "corpus"; str "texts"; str "dictionary"; str "coherence"; str "window_size"; str "topn"] ++ shown
  | Perplexity => str "corpus" :: shown
  | Difference | Convergence => compared ++ shown
  end.
(** the attributes a value is computed from *)
Definition reads (k : kind) : list pystr :=
  match k with
  | Coherence => [str "model"; str "topics"; str "texts"; str "corpus"; str "dictionary"; str "window_size"; str "coherence"; str "topn"]
  | Perplexity => [str "corpus"; str "model"]
  | Difference | Convergence => str "model" :: str "other_model" :: compared
  end.
Section Metrics.
Context {A V : Type} (none : A) (compute : kind -> list A -> V).
Record metric : Type := Metric { m_kind : kind; attrs : dict pystr A }.
Definition set_parameters (m : metric) (kw : list (pystr * A)) : metric := Metric (m_kind m) (fold_left (fun d nv => dset d (fst nv) (snd nv)) kw (attrs m)).
Definition construct (k : kind) (args : list A) : metric := set_parameters (Metric k []) (combine (fields k) args).
Definition get_value (m : metric) (kw : list (pystr * A)) : result V * metric :=
  let m := match m_kind m with Coherence => set_parameters m [(str "model", none); (str "topics", none)] | _ => m end in
  let m := set_parameters m kw in
  (let* vs := rmapM (fun n => of_option AttributeErr (dget (attrs m) n)) (reads (m_kind m)) in Ok (compute (m_kind m) vs), m).
Definition after_calls (m : metric) (kws : list (list (pystr * A))) : metric := fold_left (fun m kw => snd (get_value m kw)) kws m.
End Metrics.
Arguments metric A : clear implicits.

#!/usr/bin/env python3
"""Turns results of automutate.py into lines of seeded/LOG.jsonl.
usage: amlog.py RESULTS.jsonl... ; TIGHT maps (file, definition) of a survivor to what was done."""
import json, os, re, sys
ROOT = os.path.join(os.path.dirname(os.path.abspath(__file__)), "..")
T = os.path.join(ROOT, "rocq", "theories")
order = [os.path.basename(l.strip())[:-2] for l in open(os.path.join(ROOT, "rocq", "_CoqProject")) if l.strip().endswith(".v")]
text = {b: open(os.path.join(T, b + ".v")).read() for b in order}
req = {b: set(re.findall(r"\b(\w+)\b", " ".join(re.findall(r"From Verif Require (?:Import|Export)([^.]*)\.", text[b])))) & set(order) for b in order}
def deps(b, seen=None):
    seen = set() if seen is None else seen
    for x in req[b]:
        if x not in seen:
            seen.add(x); deps(x, seen)
    return seen
closure = {b: deps(b) for b in order}
thms = {b: re.findall(r"(?m)^Theorem (C\d\d\w*)", text[b]) for b in order}
EQ = "equivalent: "
TIGHT = {
    ("Random_Model", "reject_loop"): EQ + "0 - n % n is 0, so that the loop is never entered: C21_next_unbiased and C22 are about this",
    ("Zorder_Model", "z_lower_bound"): EQ + "more fuel than needed",
    ("Sqrt_Model", "cvtsd_si32"): ["C63_out_of_range", "C63_hypot_total"],
    ("Nameof_Model", "nameof_item"): ["C47_unknown_text"], ("Nameof_Model", "nameof"): EQ + "more fuel than needed",
    ("Nameof_Model", "as_enum"): EQ + "more fuel than needed", ("Traits_Model", "instance"): ["C87_ordering"],
    ("Lziii_Model", "lz_decoder"): EQ + "the first contents of the buffer are never read, as C26_buffer_irrelevant now proves",
    ("Cdt_Debug_Model", "incircle_d"): EQ + "a weaker assertion: the claim is that no assertion fails, and it still does not",
  ("Bitset_Model", "bytes_for"): ["C10_storage"], ("AsString_Model", "measure"): ["C02_measure_tight"],
  ("Hash_Model", "fnv1a64"): ["C14_default_basis"], ("Random_Model", "next64ss_64"): ["C16_next64"],
  ("Random_Model", "next128pp"): ["C17_xoroshiro128pp_reference"], ("Random_Model", "pcg_seed_data"): ["C19_pcg_reference"],
  ("Interlocked_Model", "is_i8"): ["C80_msvc_linearizable_partial"], ("Interlocked_Model", "msvc_load"): ["C80_msvc_linearizable_partial"],
  ("Interlocked_Model", "msvc_fetch"): ["C80_sixteen"],
  ("Interlocked_Model", "can_user_xor"): EQ + "is_fpu also asks for can_cpu_sub, which is false for such classes",
  ("Sort_Model", "lower_bound"): EQ + "more fuel", ("Zorder_Model", "z_lower_bound"): EQ + "more fuel", ("Nameof_Model", "as_enum"): EQ + "more fuel",
  ("Random_Model", "shl64"): EQ + "no caller shifts by 64", ("Random_Model", "reject_loop"): EQ + "0u - n % n is 0, the loop is never entered",
  ("Base64_Model", "dec_table"): EQ + "one more entry that no character reaches", ("Base64_Model", "b64_decoder"): EQ + "initial contents that are overwritten",
  ("Lziii_Model", "lz_decoder"): EQ + "initial contents that are overwritten", ("Sequence_Model", "enable_t"): EQ + "no second type to select",
  ("Cordic_Model", "dsub"): EQ + "all constants are exact in both formats", ("Cordic_Model", "ddiv"): EQ + "no value is near the largest double",
  ("Cordic_Model", "f_eq"): EQ + "a - b is zero when b - a is", ("Cordic_Model", "ks"): EQ + "the case does not occur",
  ("Base64_Model", "dec_table", "repeat 1"): ["C24_other_characters"], ("Os_Model", "open_file_into"): ["C82_reports"],
  ("Interlocked_Model", "access_step"): ["C80_halves_alone"], ("Os_Model", "monotonic_timestamp_posix"): ["C62_timestamp"],
  ("Traits_Model", "instance"): EQ + "the pattern is only matched against types that have the qualifier",
  ("Traits_Model", "choose"): EQ + "the patterns of each trait are ordered by specialisation",
  ("Hash_Model", "fnv1a64", "fnv_basis 65"): EQ + "the basis depends on whether the width is 32 only",
  ("Os_Model", "e_break"): EQ + "nothing uses the value of the break", ("Os_Model", "unmap_span"): EQ + "the edit is in a comment",
  ("VecFloat_Model", "binary64"): ["C89_formats"],
  ("Cdt_Model", "refine"): ["C94_refine"], ("Cost_Model", "medianC"): ["C101_counted"],
 ("Log_Model", "as_val"): EQ + "the address is read for arrays that are not of chars only",
 ("Log_Model", "log_level_macro"): ["C92_levels"], ("Log_Model", "log_level"): ["C92_levels"],
 ("Tuple_Model", "member_get"): EQ + "a call of the member with any arguments is ill-formed, as is one that finds nothing",
 ("Tuple_Model", "is_tuple"): ["C91_get_partial"],
  ("AsString_Model", "to_text_val"): EQ + "to_text_early reads the address for arrays and vectors only, which are handled before",
  ("Atomic_Model", "after_read"): EQ + "the value is not used after a store",
}
for c in ("is_base10", "is_base16", "is_alpha", "is_upper", "is_lower"):
    TIGHT[("Base64_Model", c)] = ["C84_classes"]
out = []
for path in sys.argv[1:]:
    for l in open(path):
        r = json.loads(l)
        if r["verdict"] == "illtyped": continue
        rec = {"definition": "%s.v: %s" % (r["file"], r["definition"]), "edit": "%s  ==>  %s" % (r["old"], r["new"])}
        if r["verdict"] == "killed":
            w = r["where"].split("]")[-1].strip() if "]" in r["where"] else r["where"]
            b, _, lemma = w.partition(":")
            if b not in thms: continue
            ts = [lemma] if re.match(r"C\d\d", lemma) else []
            resting = sorted({t[:3] for x in order if (x == b or b in closure[x]) for t in thms[x]}) if not ts else [lemma[:3]]
            if len(resting) > 8: resting = resting[:8] + ["..."]
            rec["claim_broken"] = "automatic edit; claims proved through it: " + ", ".join(resting)
            rec["theorems_failed"] = ts
            rec["lemmas_failed"] = [] if ts else [lemma]
            rec["theorems_tightened"] = []
        else:
            t = next((v for k, v in TIGHT.items() if k[:2] == (r["file"], r["definition"]) and len(k) == 3 and k[2] in r["new"]), TIGHT.get((r["file"], r["definition"])))
            if t is None:
                print("no note for survivor", r["file"], r["definition"], r["old"], "==>", r["new"]); continue
            rec["claim_broken"] = t if isinstance(t, str) else "automatic edit; nothing failed before the new theorem"
            rec["theorems_failed"] = []
            rec["theorems_tightened"] = [] if isinstance(t, str) else t
        out.append(rec)
with open(os.path.join(ROOT, "seeded", "LOG.jsonl"), "a") as f:
    for rec in out: f.write(json.dumps(rec) + "\n")
print(len(out), "lines")

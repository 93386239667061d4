{"C09": {"note": "the accompanying _refuted theorem shows the naive claim (table always honoured) is false"},
 "C11": {"note": "cosine over exact reals; uses the stdlib real-number axioms"}}

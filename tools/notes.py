NOTES.update({
"C02": "Holds except for ell slices with one mode set / stop 0 / low stop, which are refuted by witness theorems.",
"C11": "Terminates exactly when no later time is within the step of the first; otherwise diverges (theorem).",
})
